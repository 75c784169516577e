(** C40, C44-C47: sharding, batching, buffer reuse, deduplication and round-robin reading of the ingestion pipeline. *)
From Coq Require Import Permutation.
From Verif Require Import Base BaseLemmas UtilModel BatchModel BatchProofs.

(** ** C40. A stage with several sequential inputs gets every item of every input once, each input in its own order: the items
    it gets can be labelled with input numbers so that the items labelled [k] are exactly the sequence of input [k]. *)
Theorem C40_everything {A} (chans : list (list A)) : chans <> [] ->
  exists out : list (nat * A), read_sequentially chans = Some (map snd out) /\
    (forall k, map snd (filter (fun p => fst p =? k) out) = nth k chans []).
Proof. exact (read_sequentially_ok chans). Qed.

Theorem C40_exactly_once {A} (chans : list (list A)) : chans <> [] ->
  exists out, read_sequentially chans = Some out /\ Permutation out (concat chans).
Proof.
  intros H. destruct (read_sequentially_ok chans H) as (out & E & Hk). exists (map snd out). split; [exact E|].
  assert (G : forall cs k, (forall j, map snd (filter (fun p => fst p =? k + j) out) = nth j cs []) ->
             Permutation (map snd (filter (fun p => k <=? fst p) out)) (concat cs)).
  { induction cs as [|c cs IH]; intros k Hj.
    - rewrite filter_all_false; [apply Permutation_refl|]. intros x Hx. apply Nat.leb_gt. apply Nat.nle_gt. intros Hle.
      specialize (Hj (fst x - k)). replace (k + (fst x - k)) with (fst x) in Hj by lia.
      assert (Hin : In x (filter (fun p => fst p =? fst x) out)) by (apply filter_In; split; [exact Hx | apply Nat.eqb_refl]).
      apply (in_map snd) in Hin. rewrite Hj in Hin. destruct (fst x - k); destruct Hin.
    - cbn [concat]. rewrite <- (IH (S k)); [|intros j; replace (S k + j) with (k + S j) by lia; apply (Hj (S j))].
      specialize (Hj 0). rewrite Nat.add_0_r in Hj. cbn [nth] in Hj. rewrite <- Hj, <- map_app. apply Permutation_map. clear.
      induction out as [|x out IH]; [apply perm_nil|]. cbn [filter].
      destruct (Nat.leb_spec k (fst x)), (Nat.eqb_spec (fst x) k), (Nat.leb_spec (S k) (fst x)); try lia; cbn [app]; try exact IH.
      + apply perm_skip. exact IH.
      + rewrite <- Permutation_middle. apply perm_skip. exact IH. }
  specialize (G chans 0 Hk). cbn in G. rewrite filter_all_true in G by reflexivity. exact G.
Qed.
Print Assumptions C40_everything.
Print Assumptions C40_exactly_once.

(** Non-trivial: three inputs of different lengths. The order of the inputs is not kept once one is closed: when input 0 ends,
    the last input takes its place. *)
Example C40_example : read_sequentially [[1]; [10; 11; 12]; [20; 21]] = Some [1; 10; 20; 21; 11; 12].
Proof. reflexivity. Qed.

(** What WithSequentialInputs (withOptions.go:77) documents, reading in index order and wrapping around, is not kept: after
    input 0 of four is closed, input 3 is read before inputs 1 and 2. *)
Theorem C40_index_order_refuted : exists chans : list (list nat),
  read_sequentially chans = Some [30; 10; 20] /\ nth 1 chans [] = [10] /\ nth 2 chans [] = [20] /\ nth 3 chans [] = [30].
Proof. exists [[]; [10]; [20]; [30]]. repeat split. Qed.
Print Assumptions C40_index_order_refuted.

(** ** C44. The property holds exactly for a power of two or more than 256 workers; in the latter case worker 0 gets
    everything. *)
Theorem C44_characterised n : (1 <= n < 2 ^ 64)%N ->
  (forall id, (shard n id < n)%N) <-> (exists k, n = (2 ^ N.of_nat k)%N) \/ (256 < n)%N.
Proof. exact (shard_in_range_iff n). Qed.

Theorem C44_in_range_partial k id : k <= 8 ->
  let n := (2 ^ N.of_nat k)%N in
  (shard n id < n)%N /\ (forall c, In c (source_channels n id) -> (c < 2 * n)%N) /\ NoDup (source_channels n id).
Proof.
  intros Hk n. assert (Hs : (shard n id < n)%N) by (unfold n, shard; rewrite log2_pow; apply partition_range; exact Hk).
  split; [exact Hs|]. unfold source_channels. split.
  - intros c [<-|[<-|[]]]; lia.
  - constructor; [|constructor; [intros [] | constructor]]. intros [E|[]]. lia.
Qed.

(** No worker is left without work: every index is the shard of some id. *)
Theorem C44_onto k s : k <= 8 -> (s < 2 ^ N.of_nat k)%N -> exists id, length id = 32 /\ shard (2 ^ N.of_nat k) id = s.
Proof.
  intros Hk Hs. destruct (partition_onto k s Hk Hs) as [b E]. exists (b :: repeat x00 31). split; [reflexivity|].
  unfold shard. cbn [hd]. rewrite log2_pow. exact E.
Qed.

(** Refuted in general: with 3 workers an id starting with 0xff goes to "worker 3": its first channel is the one of the domain
    extractor 0 and its second one is out of range. *)
Theorem C44_refuted : exists n id, length id = 32 /\ (1 <= n < 2 ^ 64)%N /\ ~ (shard n id < n)%N /\ source_channels n id = [n; 2 * n]%N.
Proof. exists 3%N, (repeat xff 32). vm_compute. repeat split; discriminate. Qed.

(** With more than 256 workers everything goes to worker 0. *)
Theorem C44_too_many_workers n id : (256 < n < 2 ^ 64)%N -> shard n id = 0%N.
Proof.
  intros Hn. unfold shard. apply partition_large. pose proof (log2_mono 257 n ltac:(lia)) as Hm. change (log2 257) with 9 in Hm. split; [lia|].
  pose proof (log2_mono n (2 ^ N.of_nat 64) ltac:(split; [lia|]; apply N.lt_le_incl; change (N.of_nat 64) with 64%N; lia)) as Hm2.
  rewrite log2_pow in Hm2. lia.
Qed.
Print Assumptions C44_characterised.
Print Assumptions C44_in_range_partial.
Print Assumptions C44_onto.
Print Assumptions C44_refuted.
Print Assumptions C44_too_many_workers.

Example C44_example : shard 32 (xf8 :: repeat x00 31) = 31%N /\ shard 32 (x08 :: repeat x00 31) = 1%N /\
  source_channels 32 (xf8 :: repeat x00 31) = [31; 63]%N /\ log2 9 = 4 /\ log2 16 = 4 /\ log2 1 = 0.
Proof. repeat split. Qed.

(** ** C45. Every batch size of at least one: the batches put together are the items in order, all batches but the last are full,
    the last is smaller. *)
Theorem C45_certs {A} m (xs : list A) : 0 < m ->
  exists full last, cert_batches m xs = full ++ [last] /\ concat (cert_batches m xs) = xs /\
    Forall (fun b => length b = m) full /\ length last < m.
Proof.
  intros Hm. unfold cert_batches. destruct (batch_items m [] xs) as [outs last] eqn:E.
  destruct (batch_items_ok m Hm xs [] outs last Hm E) as (H1 & H2 & H3). exists outs, last. split; [reflexivity|].
  split; [|split; assumption]. rewrite concat_app. cbn. rewrite app_nil_r. exact H1.
Qed.

Theorem C45_domains {A} m (xs : list A) : 0 < m ->
  exists full last, domain_batches m xs = Ok (full ++ last) /\ concat (full ++ last) = xs /\
    Forall (fun b => length b = m) full /\ (last = [] \/ exists b, last = [b] /\ 0 < length b < m).
Proof.
  intros Hm. unfold domain_batches. destruct (batch_items m [] xs) as [outs last] eqn:E.
  destruct (batch_items_ok m Hm xs [] outs last Hm E) as (H1 & H2 & H3). destruct last as [|x last].
  - exists outs, []. rewrite !app_nil_r in *. split; [reflexivity|]. split; [exact H1|]. split; [exact H2 | left; reflexivity].
  - exists outs, [x :: last]. destruct (Nat.ltb_spec m (length (x :: last))); [lia|]. split; [reflexivity|].
    split; [rewrite concat_app; cbn [concat]; rewrite app_nil_r; exact H1|]. split; [exact H2|]. right.
    exists (x :: last). split; [reflexivity|]. cbn in *. lia.
Qed.

(** A batch size of zero, which no code excludes: the certificate batcher keeps everything until the end, the domain batcher
    panics at the end. *)
Theorem C45_zero_size_refuted : exists xs : list nat, cert_batches 0 xs = [xs] /\ length xs = 3 /\ domain_batches 0 xs = Panic.
Proof. exists [1; 2; 3]. repeat split. Qed.
Print Assumptions C45_certs.
Print Assumptions C45_domains.
Print Assumptions C45_zero_size_refuted.

Example C45_example : cert_batches 2 [1; 2; 3; 4; 5] = [[1; 2]; [3; 4]; [5]] /\ cert_batches 2 [1; 2] = [[1; 2]; []] /\
  domain_batches 2 [1; 2] = Ok [[1; 2]] /\ domain_batches 2 [1; 2; 3] = Ok [[1; 2]; [3]].
Proof. repeat split. Qed.

(** ** C46. Any number of extractors sharing the cache, any interleaving of their cache accesses, any cache size. With an empty
    cache at the start every domain received is emitted, and only received associations are emitted. *)
Theorem C46_domains_partial size inputs sched :
  let st := extract_run size (extract_start [] inputs) sched in
  (forall a, In a (stored st) -> In a (concat inputs)) /\
  (extracted_all st = true -> forall d, (exists a, In a (concat inputs) /\ fst a = d) <-> (exists a, In a (stored st) /\ fst a = d)).
Proof.
  intros st. destruct (dedup_final size [] inputs sched) as [H1 H2]. fold st in H1, H2. split; [exact H1|]. intros Hall d. split.
  - intros (a & Ha & <-). destruct (H2 Hall a Ha) as [[]|H]. exact H.
  - intros (a & Ha & <-). exists a. split; [apply H1; exact Ha | reflexivity].
Qed.

(** Associations are all kept when no domain comes with two certificates. *)
Theorem C46_one_certificate_partial size inputs sched :
  (forall a b, In a (concat inputs) -> In b (concat inputs) -> fst a = fst b -> snd a = snd b) ->
  let st := extract_run size (extract_start [] inputs) sched in
  extracted_all st = true -> forall a, In a (concat inputs) <-> In a (stored st).
Proof.
  intros Hone st Hall a. destruct (dedup_final size [] inputs sched) as [H1 H2]. fold st in H1, H2. split; [|apply H1].
  intros Ha. destruct (H2 Hall a Ha) as [[]|(b & Hb & E)]. pose proof (Hone b a (H1 b Hb) Ha E) as Es. destruct a, b. cbn in *. subst. exact Hb.
Qed.

(** Refuted: the second certificate of a domain is lost, with any cache of at least one entry, even with one worker. *)
Theorem C46_refuted size : 0 < size -> exists inputs sched a,
  let st := extract_run size (extract_start [] inputs) sched in
  extracted_all st = true /\ In a (concat inputs) /\ ~ In a (stored st).
Proof.
  intros Hs. exists [[([x01], [xaa]); ([x01], [xbb])]], [0; 0; 0], ([x01], [xbb]). destruct size as [|size]; [lia|].
  split; [reflexivity|]. split; [right; left; reflexivity|]. cbn. intros [E|[]]. discriminate E.
Qed.

(** Refuted: the cache is created once per manager, so a domain of an earlier run is not emitted again: it is neither stored
    with its new certificate nor marked dirty. *)
Theorem C46_second_run_refuted size : exists cache inputs sched,
  let st := extract_run size (extract_start cache inputs) sched in
  extracted_all st = true /\ length (concat inputs) = 1 /\ stored st = [].
Proof. exists [[x01]], [[([x01], [xbb])]], [0]. repeat split. Qed.
Print Assumptions C46_domains_partial.
Print Assumptions C46_one_certificate_partial.
Print Assumptions C46_refuted.
Print Assumptions C46_second_run_refuted.

(** Non-trivial: two workers see the same domain at the same time and both emit it; a third domain is evicted and emitted
    again. *)
Example C46_example :
  let inputs := [[([x01], [xaa]); ([x02], [xaa])]; [([x01], [xbb]); ([x01], [xcc])]] in
  let st := extract_run 1 (extract_start [] inputs) [0; 1; 0; 1; 0; 0; 1; 1] in
  extracted_all st = true /\ stored st = [([x01], [xaa]); ([x02], [xaa]); ([x01], [xbb]); ([x01], [xcc])].
Proof. split; reflexivity. Qed.

(** ** C47. Between two hand-outs of the same slot there are at least [size - 1] other rotations. *)
Theorem C47_rotations size k i j : 0 < size -> i < j < k ->
  nth i (rotations size 0 k) 0 = nth j (rotations size 0 k) 0 -> size - 1 <= j - i - 1.
Proof. intros Hs Hij E. pose proof (rotations_reuse size k i j Hs Hij E). lia. Qed.

(** A buffer held by any of the [d] stages behind the producer is never the one being written, in any schedule, if there are at
    least [d + 1] buffers, or [d + 2] when the next buffer is cleared before the full one is handed over. *)
Theorem C47_in_flight N d (ahead : bool) l i t : d + (if ahead then 2 else 1) <= N ->
  let st := ring_run (ring_start d) l in
  In (Some i) (held st) -> In t (touched ahead (prod st)) -> i mod N <> t mod N.
Proof. exact (ring_safe N d ahead l i t). Qed.

(** The batchers: three buffers (baseworker.go:15), one stage behind, clearing ahead. The file names: eight buffers
    (csv.go:21), two stages behind. *)
Theorem C47_batches l i t : let st := ring_run (ring_start 1) l in
  In (Some i) (held st) -> In t (touched true (prod st)) -> i mod 3 <> t mod 3.
Proof. apply C47_in_flight. cbn. lia. Qed.
Theorem C47_filenames l i t : let st := ring_run (ring_start 2) l in
  In (Some i) (held st) -> In t (touched false (prod st)) -> i mod 8 <> t mod 8.
Proof. apply C47_in_flight. cbn. lia. Qed.

(** Two buffers would not be enough for the batchers. *)
Theorem C47_three_needed : exists l i t, let st := ring_run (ring_start 1) l in
  In (Some i) (held st) /\ In t (touched true (prod st)) /\ i mod 2 = t mod 2.
Proof. exists [ActFull; ActHand; ActFull], 0, 2. cbn. repeat split; left; reflexivity. Qed.
Print Assumptions C47_rotations.
Print Assumptions C47_in_flight.
Print Assumptions C47_batches.
Print Assumptions C47_filenames.
Print Assumptions C47_three_needed.

Example C47_example : rotations 3 0 7 = [0; 1; 2; 0; 1; 2; 0] /\
  held (ring_run (ring_start 2) [ActFull; ActHand; ActMove 0; ActFull; ActHand; ActFull]) = [Some 1; Some 0].
Proof. split; reflexivity. Qed.
