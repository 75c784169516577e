(** Properties of the sparse Merkle trie. In every theorem [H] is any hash function with 32-byte results; where needed,
    [G] is a set of strings without collision under [H] that contains the strings hashed by the histories or proofs in
    question ([covers] inside [history], explicit premises elsewhere). What the code gets wrong is excluded by the
    premises of [history] and proved in PropertiesTrieRefuted.v. *)
From Verif Require Import Base TrieModel TrieSpec BaseLemmas TrieMaps TrieHash TrieBatch TrieCodec TrieSound TrieHistory TrieCompress
  TrieExample ClientModel TrieTop.

(** C01. Any history of batches (insertions, overwrites, deletions), commits, cache resets, reopenings and reads runs without
    error, returns the root of the resulting content [m], and every later Get answers from [m]. [history] defines [m]
    from the batches by [overridden]. Partial: [history] excludes batches that hit the defects. *)
Theorem C01_partial : forall H, (forall x, length (H x) = HashLength) -> forall (limit : nat) G,
  collision_free H G -> (forall x, G x -> H x <> zero_hash) ->
  forall ops m ks, history H G 0 [] ops m ->
  exists s s', run_ops H limit ops [] fresh = (Ok (root_of H m), s) /\
               gets limit (root_of H m) ks s = (Ok (map (value_in m) ks), s').
Proof. exact history_gets. Qed.
Print Assumptions C01_partial.
Example C01_example : exists s s', run_ops exH 200 ex_ops [] fresh = (Ok (root_of exH ex_m2), s) /\
  gets 200 (root_of exH ex_m2) [kA; kB; kC; kB] s = (Ok [[]; v1; []; v1], s').
Proof.
  pose proof (C01_partial exH (table_hash_length _) 200 exG exH_cf (fun x _ => table_hash_nz _ x) ex_ops ex_m2
                [kA; kB; kC; kB] ex_history) as He.
  replace (map (value_in ex_m2) [kA; kB; kC; kB]) with [[]; v1; []; v1] in He by (vm_compute; reflexivity). exact He.
Qed.

(** C02. Two such histories end in the same root exactly when they end in the same content. *)
Theorem C02_partial : forall H, (forall x, length (H x) = HashLength) -> forall (limit : nat) G,
  collision_free H G -> (forall x, G x -> H x <> zero_hash) ->
  forall ops ops' m m', history H G 0 [] ops m -> history H G 0 [] ops' m' ->
  (fst (run_ops H limit ops [] fresh) = fst (run_ops H limit ops' [] fresh) <-> forall k, lookup m k = lookup m' k).
Proof. exact history_run_roots. Qed.
Print Assumptions C02_partial.
(** A trie that never held the deleted key has the same root. *)
Definition ex_ops' : list op := [OpUpdate true ex_m2].
Lemma ex_history' ops : history exH exG 1 ex_m2 ops ex_m2 -> history exH exG 0 [] (OpUpdate true ex_m2 :: ops) ex_m2.
Proof.
  intros Hh. apply (h_update exH exG 0 [] true ex_m2 ex_m2).
  - split; [split; exact I|]. constructor; [|constructor]. split; [reflexivity | left; reflexivity].
  - intros k v [Hq|[]]. injection Hq as <- <-. split; discriminate.
  - intros (n & d & k1 & k2 & _ & [] & _).
  - exact ex_sep2.
  - exact ex_map2.
  - apply (over_overridden [] ex_m2). apply (proj1 ex_map2).
  - exact ex_covers2.
  - exact Hh.
Qed.
Example C02_example : fst (run_ops exH 200 ex_ops [] fresh) = fst (run_ops exH 200 ex_ops' [] fresh).
Proof.
  apply (C02_partial exH (table_hash_length _) 200 exG exH_cf (fun x _ => table_hash_nz _ x) ex_ops ex_ops' ex_m2 ex_m2
           ex_history (ex_history' [] (h_nil _ _ _ _))). intros k. reflexivity.
Qed.

(** C03. After any such history, any sequence of reads returns the stored values, [] for absent keys; the reads themselves may
    also be interleaved with the updates ([OpGet] and [OpProve] in [history]). Proved for contents where no two keys differ in
    the last bit only (part of [history]). *)
Theorem C03_get_partial : forall H, (forall x, length (H x) = HashLength) -> forall (limit : nat) G,
  collision_free H G -> forall m s ks, represents H G m s ->
  exists s', gets limit (root_of H m) ks s = (Ok (map (value_in m) ks), s') /\ represents H G m s'.
Proof.
  intros H Hl limit G Hcf m s ks Hr. destruct (gets_represented H Hl limit G Hcf m ks s Hr) as (vs & s' & Hg & -> & Hr').
  eauto.
Qed.
Print Assumptions C03_get_partial.
Example C03_example : exists s, represents exH exG ex_m2 s.
Proof.
  destruct (history_represented exH (table_hash_length _) 200 exG exH_cf (fun x _ => table_hash_nz _ x) ex_ops ex_m2 ex_history)
    as (s & _ & Hr). eauto.
Qed.

(** C04. The proof of a stored key is accepted by VerifyInclusion. *)
Theorem C04_partial : forall H, (forall x, length (H x) = HashLength) -> forall (limit : nat) G,
  collision_free H G -> (forall x, G x -> H x <> zero_hash) ->
  forall ops m key v, history H G 0 [] ops m -> lookup m key = Some v ->
  exists s s' ap, run_ops H limit ops [] fresh = (Ok (root_of H m), s) /\
    trie_merkle_proof limit (root_of H m) key s = (Ok (ap, true, [], v), s') /\
    legal_path ap /\ verify_inclusion H (root_of H m) ap key v = Some true.
Proof.
  intros H Hl limit G Hcf Hnz ops m key v Hh Hv.
  assert (Hk : length key = HashLength).
  { apply (is_map_lens m); [eapply history_is_map; eauto|]. apply lookup_In in Hv. eapply in_keys; eauto. }
  destruct (history_proof H Hl limit G Hcf Hnz ops m key Hh Hk) as (s & s' & ap & inc & pk & pv & Hr & Hp & _ & Hlp & Hm).
  rewrite Hv in Hm. destruct Hm as (-> & -> & -> & Hvi). exists s, s', ap. auto.
Qed.
Print Assumptions C04_partial.
Example C04_example : exists s s' ap, run_ops exH 200 ex_ops [] fresh = (Ok (root_of exH ex_m2), s) /\
  trie_merkle_proof 200 (root_of exH ex_m2) kB s = (Ok (ap, true, [], v1), s') /\
  legal_path ap /\ verify_inclusion exH (root_of exH ex_m2) ap kB v1 = Some true.
Proof.
  exact (C04_partial exH (table_hash_length _) 200 exG exH_cf (fun x _ => table_hash_nz _ x) ex_ops ex_m2 kB v1 ex_history eq_refl).
Qed.

(** C05. The proof of an absent key is accepted by VerifyNonInclusion, also on the empty trie. *)
Theorem C05_partial : forall H, (forall x, length (H x) = HashLength) -> forall (limit : nat) G,
  collision_free H G -> (forall x, G x -> H x <> zero_hash) ->
  forall ops m key, history H G 0 [] ops m -> length key = HashLength -> lookup m key = None ->
  exists s s' ap pk pv, run_ops H limit ops [] fresh = (Ok (root_of H m), s) /\
    trie_merkle_proof limit (root_of H m) key s = (Ok (ap, false, pk, pv), s') /\
    legal_path ap /\ (pk = [] \/ pk <> key /\ lookup m pk = Some pv) /\
    verify_non_inclusion H (go_root (root_of H m)) ap key pv pk = Some true.
Proof.
  intros H Hl limit G Hcf Hnz ops m key Hh Hk Hv.
  destruct (history_proof H Hl limit G Hcf Hnz ops m key Hh Hk) as (s & s' & ap & inc & pk & pv & Hr & Hp & _ & Hlp & Hm).
  rewrite Hv in Hm. destruct Hm as (-> & Hpk & Hvi). exists s, s', ap, pk, pv. auto 6.
Qed.
Print Assumptions C05_partial.
Example C05_example : exists s s' ap pk pv, run_ops exH 200 ex_ops [] fresh = (Ok (root_of exH ex_m2), s) /\
  trie_merkle_proof 200 (root_of exH ex_m2) kC s = (Ok (ap, false, pk, pv), s') /\
  legal_path ap /\ (pk = [] \/ pk <> kC /\ lookup ex_m2 pk = Some pv) /\
  verify_non_inclusion exH (go_root (root_of exH ex_m2)) ap kC pv pk = Some true.
Proof.
  exact (C05_partial exH (table_hash_length _) 200 exG exH_cf (fun x _ => table_hash_nz _ x) ex_ops ex_m2 kC ex_history eq_refl eq_refl).
Qed.

(** C06. An accepted inclusion proof, whatever the path (of legal elements), is true of the content. The key and value
    must have 32 bytes and the path elements legal lengths; without that see the C06 refutations. *)
Theorem C06_partial : forall H, (forall x, length (H x) = HashLength) -> forall G, collision_free H G ->
  forall m ap key value, is_map m -> sep (keys m) -> covers H G m -> legal_path ap ->
  length key = HashLength -> length value = HashLength ->
  let leaf := key ++ value ++ [depth_byte (length ap)] in
  G leaf -> (forall s, In s (path_strings H ap 0 (length ap) key (H leaf)) -> G s) ->
  verify_inclusion H (root_of H m) ap key value = Some true ->
  lookup m key = Some value.
Proof.
  intros H Hl G Hcf m ap key value Hm Hs Hc. apply inclusion_sound; auto. apply map_top; assumption.
Qed.
Print Assumptions C06_partial.
Example C06_example : verify_inclusion exH (root_of exH ex_m1) [exH (leaf_string kB v2 255)] kA v1 = Some true.
Proof. vm_compute. reflexivity. Qed.
Example C06_example_hyps : exG (kA ++ v1 ++ [depth_byte 1]) /\
  forall s, In s (path_strings exH [exH (leaf_string kB v2 255)] 0 1 kA (exH (kA ++ v1 ++ [depth_byte 1]))) -> exG s.
Proof.
  split.
  - apply (ex_in_b [kA ++ v1 ++ [depth_byte 1]]); [vm_compute; reflexivity | left; reflexivity].
  - apply ex_in_b. vm_compute. reflexivity.
Qed.

(** C07. An accepted non-inclusion proof is true, if the proof key differs from the key and has, like the proof value, 32 bytes (or
    is empty), and no only child in the tree has a hash with a zero byte at the outer end. *)
Theorem C07_partial : forall H, (forall x, length (H x) = HashLength) -> forall G, collision_free H G ->
  forall m ap key value proofKey, is_map m -> sep (keys m) -> covers H G m ->
  unambiguous H TrieHeight (build TrieHeight m) -> legal_path ap -> length key = HashLength ->
  (proofKey = [] \/ length proofKey = HashLength /\ length value = HashLength /\ proofKey <> key) ->
  (proofKey <> [] -> G (proofKey ++ value ++ [depth_byte (length ap)]) /\
     forall s, In s (path_strings H ap 0 (length ap) proofKey (H (proofKey ++ value ++ [depth_byte (length ap)]))) -> G s) ->
  (proofKey = [] -> forall s, In s (path_strings H ap 0 (length ap) key DefaultLeaf) -> G s) ->
  verify_non_inclusion H (Some (root_of H m)) ap key value proofKey = Some true ->
  lookup m key = None.
Proof.
  intros H Hl G Hcf m ap key value pk Hm Hs Hc. apply non_inclusion_sound; auto. apply map_top; assumption.
Qed.
Print Assumptions C07_partial.
Example C07_example : verify_non_inclusion exH (Some (root_of exH ex_m1)) [exH (leaf_string kA v1 255)] kC v2 kB = Some true /\
  unambiguous exH TrieHeight (build TrieHeight ex_m1).
Proof.
  split; [vm_compute; reflexivity|].
  assert (Hb : build TrieHeight ex_m1 = N (L kA v1) (L kB v2)) by (vm_compute; reflexivity). rewrite Hb.
  cbn [unambiguous]. split; [intros Hq; discriminate Hq|]. split; [intros Hq; discriminate Hq | auto].
Qed.

(** C08. The compressed verifiers give the plain verifiers' answer on the path that was compressed, for every path, accepted or not
    and the compressed prover compresses the plain prover's path. For non-inclusion the root must not be nil. *)
Theorem C08_verify_inclusion : forall H ap bm mp root key value, compress ap = (bm, mp) ->
  verify_inclusion_c H root bm key value mp (length ap) = verify_inclusion H root ap key value.
Proof. exact compress_inclusion. Qed.
Print Assumptions C08_verify_inclusion.
Theorem C08_verify_non_inclusion_partial : forall H ap bm mp root key value proofKey, compress ap = (bm, mp) ->
  verify_non_inclusion_c H root mp (length ap) bm key value proofKey =
  verify_non_inclusion H (Some root) ap key value proofKey.
Proof. exact compress_non_inclusion. Qed.
Print Assumptions C08_verify_non_inclusion_partial.
Theorem C08_prover : forall limit root key s,
  match trie_merkle_proof limit root key s with
  | (Ok (ap, inc, pk, pv), s') =>
      trie_merkle_proof_compressed limit root key s = (Ok (compress ap, length ap, inc, pk, pv), s')
  | (_, s') => exists e, trie_merkle_proof_compressed limit root key s = (e, s') /\ forall r, e <> Ok r
  end.
Proof.
  intros limit root key s. unfold trie_merkle_proof_compressed, bind.
  destruct (trie_merkle_proof limit root key s) as [[[[[ap inc] pk] pv]| |] s'].
  - destruct (compress ap) as [bm mp]. reflexivity.
  - exists Err. split; [reflexivity | discriminate].
  - exists Panic. split; [reflexivity | discriminate].
Qed.
Print Assumptions C08_prover.
Example C08_example : compress [v1; DefaultLeaf; v2; DefaultLeaf] = ([xa0], [v1; v2]).
Proof. reflexivity. Qed.

(** C09. *)
Theorem C09_batch_round_trip : forall b, wf_batch b ->
  parse_batch (serialize_batch b) = b /\ length (serialize_batch b) = 4 + 33 * length (filter nonempty (tl b)).
Proof. intros b Hw. split; [apply parse_serialize | apply serialize_length]; exact Hw. Qed.
Print Assumptions C09_batch_round_trip.
Example C09_example : wf_batch ([x00] :: repeat x07 33 :: [] :: repeat x08 33 :: repeat [] 26 ++ [repeat x09 33]) /\
  wf_batch ([x01] :: repeat x07 33 :: repeat x08 33 :: repeat [] 28).
Proof.
  split; (split; [reflexivity|]).
  - left. split; [reflexivity|]. intros i Hi. unfold slot.
    do 31 (destruct i as [|i]; [first [lia | left; reflexivity | right; reflexivity]|]). lia.
  - right. split; [reflexivity|]. split; [reflexivity|]. split; [reflexivity|]. intros i Hi. unfold slot.
    do 31 (destruct i as [|i]; [first [reflexivity | lia]|]). lia.
Qed.

(** C10. After a history that ends in Commit and reopening (nothing but the database is left), reads answer from the content. *)
Theorem C10_partial : forall H, (forall x, length (H x) = HashLength) -> forall (limit : nat) G,
  collision_free H G -> (forall x, G x -> H x <> zero_hash) ->
  forall ops m ks, history H G 0 [] (ops ++ [OpCommit; OpReopen]) m ->
  exists s s', run_ops H limit (ops ++ [OpCommit; OpReopen]) [] fresh = (Ok (root_of H m), s) /\
               live s = (fun _ => None) /\ updated s = (fun _ => None) /\
               gets limit (root_of H m) ks s = (Ok (map (value_in m) ks), s').
Proof. exact history_durable. Qed.
Print Assumptions C10_partial.
Example C10_example : history exH exG 0 [] ([OpUpdate true ex_m2] ++ [OpCommit; OpReopen]) ex_m2.
Proof. apply ex_history'. apply h_commit; [lia|]. apply h_reopen. apply h_nil. Qed.

(** C12. The verifiers do not panic on any path of at most 8 elements per key byte, proof key and key alike; a client
    response that is not [None] and whose path is that short is answered. *)
Theorem C12_verify_total_partial : forall H root ap key value proofKey,
  length ap <= 8 * length key -> (proofKey = [] \/ length ap <= 8 * length proofKey) ->
  (exists b, verify_inclusion H root ap key value = Some b) /\
  forall r, exists b, verify_non_inclusion H r ap key value proofKey = Some b.
Proof.
  intros H root ap key value pk Hk Hp. split; [apply verify_inclusion_total; exact Hk|].
  intros r. apply verify_non_inclusion_total; assumption.
Qed.
Print Assumptions C12_verify_total_partial.
Theorem C12_client_total_partial : forall H e p, length (de_id e) = HashLength -> length (proof_path p) <= TrieHeight ->
  (proof_key p = [] \/ length (proof_path p) <= 8 * length (proof_key p)) ->
  verify_proof_by_domain H (mk_response (Some e) p) <> Panic.
Proof.
  intros H e p Hk Hl Hp. assert (Hl' : length (proof_path p) <= 8 * length (de_id e)) by (rewrite Hk, HL; rewrite TH in Hl; lia).
  unfold verify_proof_by_domain. cbn [entry the_poi]. destruct (Z.eqb (proof_type p) PoP).
  - destruct (beqb _ _); [|discriminate].
    destruct (verify_inclusion_total H (match proof_root p with Some x => x | None => [] end) _ _ (de_value e) Hl') as (b & ->).
    discriminate.
  - destruct (verify_non_inclusion_total H (proof_root p) _ _ (proof_value p) _ Hl' Hp) as (b & ->). discriminate.
Qed.
Print Assumptions C12_client_total_partial.
Example C12_example : verify_inclusion exH [] (repeat v1 256) kA v2 = Some false.
Proof. vm_compute. reflexivity. Qed.

(** C13. *)
Theorem C13_split_keys : forall n kvs, increasing (keys kvs) ->
  (forall a b, In a (keys kvs) -> In b (keys kvs) -> length a = length b) ->
  (forall a b, In a (keys kvs) -> In b (keys kvs) -> agree n a b) ->
  split_keys kvs n = (filter (fun kv => negb (bit (fst kv) n)) kvs, filter (fun kv => bit (fst kv) n) kvs) /\
  fst (split_keys kvs n) ++ snd (split_keys kvs n) = kvs.
Proof. exact split_keys_exact. Qed.
Print Assumptions C13_split_keys.
Theorem C13_order : forall a b : bytes, length a = length b ->
  (bcmp a b = Lt <-> exists n, n < 8 * length a /\ (forall i, i < n -> bit a i = bit b i) /\ bit a n = false /\ bit b n = true).
Proof. exact bcmp_lt_bits. Qed.
Print Assumptions C13_order.
Example C13_example : split_keys [([x10], v1); ([x1f], v1); ([x70], v2)] 1 = ([([x10], v1); ([x1f], v1)], [([x70], v2)]).
Proof. reflexivity. Qed.

(** C14. Accepted as present: the value is the stored one. The id must be the one of the domain, which the client does not
    check, and the root the expected one. *)
Theorem C14_presence_partial : forall H, (forall x, length (H x) = HashLength) -> forall G, collision_free H G ->
  forall m e p, is_map m -> sep (keys m) -> covers H G m ->
  length (de_id e) = HashLength -> length (de_value e) = HashLength ->
  proof_root p = Some (root_of H m) -> legal_path (proof_path p) ->
  G (de_id e ++ de_value e ++ [depth_byte (length (proof_path p))]) ->
  (forall s, In s (path_strings H (proof_path p) 0 (length (proof_path p)) (de_id e)
                     (H (de_id e ++ de_value e ++ [depth_byte (length (proof_path p))]))) -> G s) ->
  verify_proof_by_domain H (mk_response (Some e) p) = Ok (PoP, true) ->
  proof_value p = de_value e /\ lookup m (de_id e) = Some (de_value e).
Proof.
  intros H Hl G Hcf m e p Hm Hs Hc. apply client_presence; auto. apply map_top; assumption.
Qed.
Print Assumptions C14_presence_partial.
Example C14_presence_example :
  verify_proof_by_domain exH (mk_response (Some (mk_entry [] kA v1)) (mk_poi PoP [exH (leaf_string kB v2 255)] (Some (root_of exH ex_m1)) [] v1))
  = Ok (PoP, true).
Proof. vm_compute. reflexivity. Qed.

(** C14. Accepted as absent, with a proof key that is empty or another 32-byte key with a 32-byte value: not stored. *)
Theorem C14_absence_partial : forall H, (forall x, length (H x) = HashLength) -> forall G, collision_free H G ->
  forall m e p, is_map m -> sep (keys m) -> covers H G m -> unambiguous H TrieHeight (build TrieHeight m) ->
  length (de_id e) = HashLength ->
  proof_root p = Some (root_of H m) -> legal_path (proof_path p) ->
  (proof_key p = [] \/
   length (proof_key p) = HashLength /\ length (proof_value p) = HashLength /\ proof_key p <> de_id e) ->
  (proof_key p <> [] ->
     G (proof_key p ++ proof_value p ++ [depth_byte (length (proof_path p))]) /\
     forall s, In s (path_strings H (proof_path p) 0 (length (proof_path p)) (proof_key p)
                       (H (proof_key p ++ proof_value p ++ [depth_byte (length (proof_path p))]))) -> G s) ->
  (proof_key p = [] ->
     forall s, In s (path_strings H (proof_path p) 0 (length (proof_path p)) (de_id e) DefaultLeaf) -> G s) ->
  verify_proof_by_domain H (mk_response (Some e) p) = Ok (PoA, true) ->
  lookup m (de_id e) = None.
Proof.
  intros H Hl G Hcf m e p Hm Hs Hc. apply client_absence; auto. apply map_top; assumption.
Qed.
Print Assumptions C14_absence_partial.
Example C14_absence_example :
  verify_proof_by_domain exH (mk_response (Some (mk_entry [] kC v1)) (mk_poi 7 [exH (leaf_string kA v1 255)] (Some (root_of exH ex_m1)) kB v2))
  = Ok (PoA, true).
Proof. vm_compute. reflexivity. Qed.

(** C14, the other direction: what an honest responder sends is accepted, as presence exactly for stored domains, if the
    database payload hashes to the value in the trie. *)
Theorem C14_honest_accepted : forall H, (forall x, length (H x) = HashLength) -> forall (limit : nat) G, collision_free H G ->
  forall payload m s name, represents H G m s ->
  (forall v, lookup m (H name) = Some v -> payload (H name) = v) ->
  exists r s', get_proof_part H payload limit (root_of H m) name s = (Ok r, s') /\
    match lookup m (H name) with
    | Some v => entry r = Some (mk_entry name (H name) v) /\ verify_proof_by_domain H r = Ok (PoP, true)
    | None => verify_proof_by_domain H r = Ok (PoA, true)
    end.
Proof.
  intros H Hl limit G Hcf payload m s name Hr Hp.
  destruct (client_honest H Hl limit G Hcf payload m s name Hr Hp) as (r & s' & Hg & Hq & _). eauto.
Qed.
Print Assumptions C14_honest_accepted.
Example C14_honest_example : exists s r s', represents exH exG ex_m2 s /\
  get_proof_part exH (fun _ => v1) 200 (root_of exH ex_m2) [x61] s = (Ok r, s') /\ verify_proof_by_domain exH r = Ok (PoA, true).
Proof.
  destruct C03_example as (s & Hr).
  assert (Hn : lookup ex_m2 (exH [x61]) = None) by (vm_compute; reflexivity).
  destruct (C14_honest_accepted exH (table_hash_length _) 200 exG exH_cf (fun _ => v1) ex_m2 s [x61] Hr) as (r & s' & Hg & Hv).
  { intros v Hv. rewrite Hn in Hv. discriminate. }
  rewrite Hn in Hv. exists s, r, s'. auto.
Qed.
