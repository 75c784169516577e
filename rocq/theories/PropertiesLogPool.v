(** C74, C75: the policy log client. *)
From Coq Require Import Permutation.
From Verif Require Import Base BaseLemmas SysModel SysProofs JoinModel JoinProofs LogPoolModel LogPoolProofs.

(** ** C74. AddLeaves and FetchInclusions: for every number of workers, all leaves and every schedule, with at least one leaf: nobody sends on a closed
    channel and no index is out of range. *)
Theorem C74_no_panic : forall (D R : Type) W (data : list D) (l : list (@pool_act R)), data <> [] -> died (run (pool_step W (length data)) (pool_start data) l) = false.
Proof. intros D R W data l H. exact (k_died _ _ _ (kinv_run W data H l)). Qed.
(** With at least one worker and if every call returns, every fair schedule ends: the leader has returned, and all workers are gone. *)
Theorem C74_everybody_ends : forall (D R : Type) W (data : list D) (f : nat -> @pool_act R), data <> [] -> 0 < W -> inhabited R -> fair f ->
  exists n, let c := run (pool_step W (length data)) (pool_start data) (prefix f n) in leader c = LRet /\ forall w, w < W -> workers c w = KEnd.
Proof. intros D R W data f H HW HR Hf. exact (pool_ends W data H f HW HR Hf). Qed.
(** When the leader returns, every leaf has had exactly one call, and the leader has the result of every call. *)
Theorem C74_one_result_each : forall (D R : Type) W (data : list D) (l : list (@pool_act R)), data <> [] ->
  let c := run (pool_step W (length data)) (pool_start data) l in leader c = LRet ->
  Permutation data (map fst (calls c)) /\ Permutation (calls c) (collected c).
Proof.
  intros D R W data l H c E. destruct (pool_returns W data H l E) as [A B]. fold c in A, B. split; [|exact B].
  rewrite A. apply Permutation_map. symmetry. exact B.
Qed.
(** AddLeaves then reports exactly the leaves whose call failed, with their errors in the same order, after one empty leaf. *)
Theorem C74_add_leaves : forall W (data : list bytes) (l : list (@pool_act (option bytes))), data <> [] ->
  let c := run (pool_step W (length data)) (pool_start data) l in leader c = LRet ->
  exists failed, Permutation failed (filter (fun x => match snd x with Some _ => true | None => false end) (calls c)) /\
  add_failed (add_leaves_result (collected c)) = [] :: map fst failed /\ map Some (add_errs (add_leaves_result (collected c))) = map snd failed.
Proof.
  intros W data l H c E. destruct (pool_returns W data H l E) as [A B]. fold c in A, B.
  exists (filter (fun x => match snd x with Some _ => true | None => false end) (collected c)). split; [|].
  - clear A E. induction B as [|[d [e|]] l1 l2 P IH|[d1 [e1|]] [d2 [e2|]] l1|l1 l2 l3 P1 IH1 P2 IH2]; cbn; auto using perm_skip, perm_swap.
    rewrite IH2. exact IH1.
  - unfold add_leaves_result. rewrite add_fold. cbn. split; [reflexivity|]. clear A B E. induction (collected c) as [|[d [e|]] m IH]; cbn; [reflexivity| |exact IH]. rewrite IH. reflexivity.
Qed.
(** FetchInclusions: a name is in the map exactly if some call for a leaf of this name gave a proof, and then with such a proof; the failed ones are listed. *)
Theorem C74_fetch_inclusions : forall (P : Type) (leaf_name : bytes -> bytes) W (data : list bytes) (l : list (@pool_act (fetched P))), data <> [] ->
  let c := run (pool_step W (length data)) (pool_start data) l in leader c = LRet ->
  let r := fetch_inclusions_result leaf_name (collected c) in
  (forall n, match lookup n (pois r) with
             | Some p => exists d, In (d, FProof p) (calls c) /\ leaf_name d = n
             | None => forall d p, In (d, FProof p) (calls c) -> leaf_name d <> n
             end) /\
  f_failed r = map fst (filter (fun x => match snd x with FErr _ => true | FProof _ => false end) (collected c)) /\
  f_names r = map leaf_name (f_failed r) /\
  f_errs r = flat_map (fun x => match snd x with FErr e => [e] | FProof _ => [] end) (collected c).
Proof.
  intros P leaf_name W data l H c E r. destruct (pool_returns W data H l E) as [A B]. fold c in A, B.
  destruct (fetch_fold leaf_name (collected c) (mk_fetch [] [] [] [])) as (F1 & F2 & F3 & F4). change (fold_left _ _ _) with r in F1, F2, F3, F4. cbn [f_failed f_names f_errs pois app] in *.
  split; [|split; [exact F1|split; [|exact F3]]].
  - intros n. specialize (F4 n). destruct (lookup n (pois r)) as [p|].
    + destruct F4 as [X|(d & X & Y)]; [discriminate|]. exists d. split; [|exact Y]. exact (Permutation_in _ (Permutation_sym B) X).
    + destruct F4 as [_ X]. intros d p Hd. apply (X d p). exact (Permutation_in _ B Hd).
  - rewrite F2, F1, map_map. reflexivity.
Qed.
(** One query: the answer is the first that is neither "not found" nor without a proof, if at most 11 before it were "not found"; at the 12th of
    these it fails. *)
Theorem C74_query : forall (P : Type) (replies : nat -> reply P) n fuel, (forall m, m < n -> again (replies m) = true) -> misses replies n <= 11 -> n < fuel ->
  (forall p, replies n = RProof p -> query_loop fuel replies 0 0 = Some (FProof p, S n)) /\
  (forall e, replies n = RFail e -> query_loop fuel replies 0 0 = Some (FErr e, S n)) /\
  (forall e, replies n = RNotFound e -> misses replies n = 11 -> query_loop fuel replies 0 0 = Some (FErr e, S n)).
Proof.
  intros P replies n fuel Ha Hm Hf. split; [|split].
  - intros p Hp. exact (query_proof replies n fuel p Ha Hm Hp Hf).
  - intros e He. apply (query_decided replies n fuel e Ha Hm); [left; exact He | exact Hf].
  - intros e He H11. apply (query_decided replies n fuel e Ha Hm); [right; exists e; auto | exact Hf].
Qed.

(** Two workers, three leaves, one call fails. *)
Example C74_three : let c := run (pool_step 2 3) (pool_start [[x61]; [x62]; [x63]])
    [KSend 0; KSend 1; KAnswer 1 (Some [x65]); KAnswer 0 None; KResult 1; KSend 1; KQuit 0; KResult 0; KQuit 0; KAnswer 1 None; KResult 1; KQuit 1] in
  leader c = LRet /\ map (workers c) [0; 1] = [KEnd; KEnd] /\ calls c = [([x62], Some [x65]); ([x61], None); ([x63], None)] /\
  add_leaves_result (collected c) = mk_add [[]; [x62]] [[x65]].
Proof. vm_compute. auto. Qed.
Example C74_query_case : query_loop 20 (fun n => if n <? 3 then RNotFound [x65] else if n =? 3 then REmpty else RProof n) 0 0 = Some (FProof 4, 5).
Proof. reflexivity. Qed.

(** Without a leaf the leader panics; without a worker nothing ever happens. *)
Theorem C74_no_leaves_refuted : forall (D R : Type) W, died (run (@pool_step D R W 0) (pool_start []) [KSelect]) = true.
Proof. reflexivity. Qed.
Theorem C74_no_workers_refuted : forall (D R : Type) (data : list D) (l : list (@pool_act R)), data <> [] ->
  run (pool_step 0 (length data)) (pool_start data) l = pool_start data.
Proof.
  intros D R data l H. induction l as [|a l IH]; [reflexivity|]. rewrite run_cons.
  assert (X : do (@pool_step D R 0 (length data)) (pool_start data) a = pool_start data); [|rewrite X; exact IH].
  unfold do, pool_step. cbn. destruct a; try reflexivity; destruct data; try contradiction; reflexivity.
Qed.
(** The failed leaves are never none: their list starts with an empty leaf. *)
Theorem C74_failed_leaves_refuted : forall c, (forall x, In x c -> snd x = None) -> add_failed (add_leaves_result c) = [[]] /\ add_errs (add_leaves_result c) = [].
Proof.
  intros c H. unfold add_leaves_result. rewrite add_fold. cbn. induction c as [|[d [e|]] c IH]; cbn; [auto | |].
  - specialize (H (d, Some e) (or_introl eq_refl)). discriminate.
  - apply IH. intros x Hx. apply H. right. exact Hx.
Qed.
(** While the log answers without a proof, as it does for a log with a single leaf, the worker asks for ever. *)
Theorem C74_single_leaf_refuted : forall (P : Type) (replies : nat -> reply P), (forall n, replies n = REmpty) -> forall fuel, query_loop fuel replies 0 0 = None.
Proof. intros P replies H fuel. apply query_empty. exact H. Qed.

(** ** C75. QueueRPCs. If all files can be read and there is one, and the log comes to the expected size: all files are removed, the
    numbers are those of the calls, every leaf that was not added is reported. *)
Theorem C75_partial : forall (P : Type) (leaf_name : bytes -> bytes) files (size0 : Z) added sizes (got : list (bytes * fetched P)) k fuel data,
  (forall f, In f files -> snd f <> None) -> files <> [] -> map Some data = map snd files ->
  Permutation data (map fst added) -> Permutation data (map fst got) ->
  let ok := length (filter (fun x => match snd x with None => true | Some _ => false end) added) in
  sizes k = Some (size0 + Z.of_nat ok)%Z -> (forall j, j < k -> exists s, sizes j = Some s /\ s <> (size0 + Z.of_nat ok)%Z) -> k < fuel ->
  exists r, queue_rpcs leaf_name files size0 added sizes got fuel = Some (QDone r (size0 + Z.of_nat ok)%Z, []) /\
    q_added r = Z.of_nat ok /\ q_fail_add r = [] :: map fst (filter (fun x => match snd x with Some _ => true | None => false end) added) /\
    q_fail_get r = map fst (filter (fun x => match snd x with FErr _ => true | FProof _ => false end) got) /\
    q_fail_names r = map (fun x => leaf_name (fst x)) (filter (fun x => match snd x with FErr _ => true | FProof _ => false end) got) /\
    q_get_errs r = flat_map (fun x => match snd x with FErr e => [e] | FProof _ => [] end) got /\
    exists names, NoDup names /\ (forall n, In n names <-> exists d p, In (d, FProof p) got /\ leaf_name d = n) /\ q_retrieved r = length names.
Proof.
  intros P leaf_name files size0 added sizes got k fuel data Hf Hn Hd Ha Hg ok Hk Hj Hfu. destruct (read_rpcs_ok files Hf) as (l & E & El).
  assert (data = l) as <-. { rewrite <- Hd in El. clear - El. revert data El. induction l as [|x l IH]; intros [|y d] H; try discriminate; [reflexivity|]. cbn in H. injection H as -> H. rewrite (IH d H). reflexivity. }
  unfold queue_rpcs. rewrite E. destruct data as [|d data]; [destruct files; [contradiction | discriminate]|].
  assert (OK : (Z.of_nat (length (d :: data)) - Z.of_nat (length (add_errs (add_leaves_result added))))%Z = Z.of_nat ok).
  { rewrite (Permutation_length Ha), map_length. unfold add_leaves_result, ok. rewrite add_fold. cbn [add_errs app]. clear. induction added as [|[x [e|]] m IH]; cbn [length flat_map filter snd app] in *; lia. }
  rewrite OK, (wait_reaches sizes _ k Hk Hj fuel Hfu). eexists. split; [reflexivity|]. split; [reflexivity|]. split.
  - cbn [q_fail_add]. unfold add_leaves_result. rewrite add_fold. reflexivity.
  - cbn [q_fail_get q_fail_names q_get_errs q_retrieved]. destruct (fetch_fold leaf_name got (mk_fetch [] [] [] [])) as (F1 & F2 & F3 & _).
    split; [exact F1|]. split; [exact F2|]. split; [exact F3|]. destruct (fetch_names leaf_name got (mk_fetch [] [] [] []) (NoDup_nil _)) as [N I].
    exists (map fst (pois (fetch_inclusions_result leaf_name got))). split; [exact N|]. split; [|rewrite map_length; reflexivity].
    intros n. split; [intros X; apply I in X as [[]|X]; exact X | intros X; apply I; right; exact X].
Qed.
Definition no_name (b : bytes) : bytes := b.
Example C75_case : queue_rpcs no_name [([x31], Some [x61]); ([x32], Some [x62])] 5 [([x62], Some [x65]); ([x61], None)] (fun n => if n =? 0 then Some 5%Z else Some 6%Z)
    [([x61], FProof 7); ([x62], FErr [x66])] 10 = Some (QDone (mk_queue 1 [[]; [x62]] [] 1 [[x62]] [[x62]] [[x66]]) 6, []).
Proof. vm_compute. reflexivity. Qed.

(** Refuted in the other cases. A file that cannot be read: the ones before it are already removed, and their data is never added. *)
Theorem C75_rpcs_lost_refuted : forall (P : Type) leaf_name (pre : list rpc_file) n rest size0 added sizes (got : list (bytes * fetched P)) fuel,
  (forall f, In f pre -> snd f <> None) ->
  queue_rpcs leaf_name (pre ++ (n, None) :: rest) size0 added sizes got fuel = Some (QRead, (n, None) :: rest).
Proof. intros P leaf_name pre n rest size0 added sizes got fuel H. pose proof (read_rpcs_fail pre n rest H) as E. unfold queue_rpcs. unfold rpc_file in *. rewrite E. reflexivity. Qed.
Example C75_rpcs_lost_case : queue_rpcs no_name [([x31], Some [x61]); ([x32], None); ([x33], Some [x63])] 0 [] (fun _ => None) ([] : list (bytes * fetched nat)) 1 =
  Some (QRead, [([x32], None); ([x33], Some [x63])]).
Proof. reflexivity. Qed.
(** No file: it panics. *)
Theorem C75_no_files_refuted : forall (P : Type) leaf_name size0 added sizes (got : list (bytes * fetched P)) fuel, queue_rpcs leaf_name [] size0 added sizes got fuel = Some (QPanic, []).
Proof. reflexivity. Qed.
(** The log never has the expected size, because the tree already has leaves the client did not count (its size starts at 0), or because of the leaves of
    others, or because an identical leaf was added before: it never returns. *)
Theorem C75_never_returns_refuted : forall (P : Type) leaf_name files (size0 : Z) added sizes (got : list (bytes * fetched P)) data,
  read_rpcs files = (Some data, []) -> data <> [] ->
  (forall j, exists s, sizes j = Some s /\ s <> (size0 + (Z.of_nat (length data) - Z.of_nat (length (add_errs (add_leaves_result added)))))%Z) ->
  forall fuel, queue_rpcs leaf_name files size0 added sizes got fuel = None.
Proof.
  intros P leaf_name files size0 added sizes got data E Hn H fuel. unfold queue_rpcs. rewrite E. destruct data as [|d data]; [contradiction|]. rewrite wait_never; [reflexivity | exact H].
Qed.
Example C75_never_returns_case : read_rpcs [([x31], Some [x61])] = (Some [[x61]], []) /\
  (forall j : nat, exists s, (fun _ => Some 8%Z) j = Some s /\ s <> (0 + (Z.of_nat (length [[x61]]) - Z.of_nat (length (add_errs (add_leaves_result [([x61], None)])))))%Z).
Proof. split; [reflexivity|]. intros j. exists 8%Z. split; [reflexivity | discriminate]. Qed.
(** The errors of adding are not reported. *)
Theorem C75_add_errors_refuted : forall (P : Type) leaf_name files size0 added sizes (got : list (bytes * fetched P)) fuel r s rest,
  queue_rpcs leaf_name files size0 added sizes got fuel = Some (QDone r s, rest) -> q_add_errs r = [].
Proof.
  intros P leaf_name files size0 added sizes got fuel r s rest H. unfold queue_rpcs in H. destruct (read_rpcs files) as [[[|d l]|] k]; try discriminate.
  destruct (wait_size _ _ _ _) as [[x|]|]; try discriminate. injection H as <- _ _. reflexivity.
Qed.

Print Assumptions C74_no_panic.
Print Assumptions C74_everybody_ends.
Print Assumptions C74_one_result_each.
Print Assumptions C74_add_leaves.
Print Assumptions C74_fetch_inclusions.
Print Assumptions C74_query.
Print Assumptions C75_partial.
Print Assumptions C75_rpcs_lost_refuted.
Print Assumptions C75_never_returns_refuted.
