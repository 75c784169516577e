(** Properties of the parallel trie update (C11). [H], [G] and [history] as in PropertiesTrie.v. *)
From Verif Require Import Base TrieModel TrieSpec BaseLemmas TrieMaps TrieHash TrieBatch TrieCodec TrieSound TrieHistory
  TrieExample TrieTop TrieParModel TrieParSpec TrieParTop.

(** C11. After any history whose updates ran under any schedules, let a further batch be applied. The sequential update
    succeeds, and every schedule of the parallel one that has ended returned the same root, that of the resulting content
    [m'], and left the same caches, the same nodes to remove and the same rows, for every hash. The batches found in memory
    at the start ([hp]) do not matter. Full statement: for every batch and tree; missing: the batches that hit the defects
    excluded by [history]. *)
Theorem C11_schedule_partial : forall H, (forall x, length (H x) = HashLength) -> forall (limit : nat) G,
  collision_free H G -> (forall x, G x -> H x <> zero_hash) ->
  forall ops m r s atomic b m', history H G 0 [] ops m -> par_run H limit ops [] fresh r s ->
  b <> [] -> is_batch b -> effective m b -> ~ straddled m b -> sep (keys m ++ keys b) ->
  is_map m' -> overridden m b m' -> covers H G m' ->
  exists sq, trie_update H limit atomic (root_of H m) b s = (Ok (root_of H m'), sq) /\
  forall hp r' s', steps (trie_update_p H limit atomic (root_of H m) b) (mk_st s hp) (Ret r') s' ->
    option_map (fun x => firstn HashLength (fst x)) r' = Some (root_of H m') /\ forall x, same_at x (db s') sq.
Proof. exact par_update. Qed.
Print Assumptions C11_schedule_partial.
(** Two keys in different halves: the schedule that runs every right half before the left one. *)
Example C11_schedule_example : exists r' s',
  steps (trie_update_p exH 200 false [] ex_b1) (mk_st fresh (fun _ => [])) (Ret r') s' /\
  (r', s') = rseqp (trie_update_p exH 200 false [] ex_b1) (mk_st fresh (fun _ => [])) /\
  (forall q, r' = Some q -> firstn HashLength (fst q) = root_of exH ex_m1) /\ r' <> None /\
  updated (db s') (root_of exH ex_m1) <> None.
Proof.
  set (p := trie_update_p exH 200 false [] ex_b1). set (s0 := mk_st fresh (fun _ => [])).
  exists (fst (rseqp p s0)), (snd (rseqp p s0)).
  split; [apply rseqp_steps|]. split; [symmetry; apply surjective_pairing|].
  destruct (C11_schedule_partial exH (table_hash_length _) 200 exG exH_cf (fun x _ => table_hash_nz _ x) [] []
    (Some []) fresh false ex_b1 ex_m1 (h_nil _ _ _ _) (pr_nil _ _ _ _) ltac:(discriminate) ex_batch1) as (sq & Hrun & Hall).
  - intros k v Hi. split; [discriminate|]. intros Hv. destruct Hi as [Hq|[Hq|[]]]; inversion Hq; subst; discriminate.
  - intros (n & d & k1 & k2 & _ & [] & _).
  - exact ex_sep1.
  - exact ex_map1.
  - apply (over_overridden [] ex_b1). apply (proj1 ex_map1).
  - exact ex_covers1.
  - destruct (Hall (fun _ => []) _ _ (rseqp_steps p s0)) as (Hr & Hx).
    split; [|split].
    + intros q Hq. rewrite Hq in Hr.
      apply (f_equal (fun o => match o with Some x => x | None => [] end)) in Hr. exact Hr.
    + intros Hq. rewrite Hq in Hr. discriminate.
    + destruct (Hx (root_of exH ex_m1)) as (_ & Hu & _). rewrite Hu.
      assert (Hsq : sq = snd (trie_update exH 200 false [] ex_b1 fresh)).
      { change (root_of exH []) with ([] : bytes) in Hrun. rewrite Hrun. reflexivity. }
      rewrite Hsq. clear. vm_compute. discriminate.
Qed.

(** Whole histories: they can be run, and however the updates are scheduled the result is the root of the content and
    every later Get answers from the content; no run ends in an error. *)
Theorem C11_history_partial : forall H, (forall x, length (H x) = HashLength) -> forall (limit : nat) G,
  collision_free H G -> (forall x, G x -> H x <> zero_hash) ->
  forall ops m ks, history H G 0 [] ops m ->
  (exists r s, par_run H limit ops [] fresh r s) /\
  forall r s, par_run H limit ops [] fresh r s ->
    r = Some (root_of H m) /\ exists s', gets limit (root_of H m) ks s = (Ok (map (value_in m) ks), s').
Proof. exact par_history. Qed.
Print Assumptions C11_history_partial.
Example C11_history_example : exists r s s', par_run exH 200 ex_ops [] fresh r s /\ r = Some (root_of exH ex_m2) /\
  gets 200 (root_of exH ex_m2) [kA; kB; kC] s = (Ok [[]; v1; []], s').
Proof.
  destruct (C11_history_partial exH (table_hash_length _) 200 exG exH_cf (fun x _ => table_hash_nz _ x) ex_ops ex_m2
                [kA; kB; kC] ex_history) as [(r & s & Hp) Hall].
  destruct (Hall r s Hp) as (Hr & s' & Hg).
  replace (map (value_in ex_m2) [kA; kB; kC]) with [[]; v1; []] in Hg by (vm_compute; reflexivity). eauto 8.
Qed.

(** No schedule goes on for ever and none gets stuck: whatever the tree, the batch and the state. *)
Theorem C11_schedules_end : forall H limit atomic root b s,
  Acc next_conf (trie_update_p H limit atomic root b, s) /\
  forall p' s', steps (trie_update_p H limit atomic root b) s p' s' ->
    (exists r, p' = Ret r) \/ exists p'' s'', step p' s' p'' s''.
Proof. intros. apply schedules_end. Qed.
Print Assumptions C11_schedules_end.
