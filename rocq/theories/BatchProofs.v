(** Proofs about sharding, batching, the buffer ring, deduplication and round-robin reading. *)
From Coq Require Import Permutation.
From Verif Require Import Base BaseLemmas UtilModel UtilSlices BatchModel.

(** ** Sharding *)
Lemma pos_bits_log2 p : pos_bits p = S (N.to_nat (N.log2 (Npos p))).
Proof.
  induction p as [p IH|p IH|]; cbn [pos_bits]; [| |reflexivity]; rewrite IH.
  - replace (N.pos p~1) with (2 * N.pos p + 1)%N by reflexivity. rewrite N.log2_succ_double by lia. lia.
  - replace (N.pos p~0) with (2 * N.pos p)%N by reflexivity. rewrite N.log2_double by lia. lia.
Qed.

Lemma bit_length_spec n : (n < 2 ^ N.of_nat (bit_length n))%N /\ (0 < n -> 2 ^ (N.of_nat (bit_length n) - 1) <= n)%N.
Proof.
  destruct n as [|p]; [split; [reflexivity | lia]|]. cbn [bit_length]. rewrite pos_bits_log2.
  replace (N.of_nat (S (N.to_nat (N.log2 (N.pos p))))) with (N.succ (N.log2 (N.pos p))) by lia.
  pose proof (N.log2_spec (N.pos p) ltac:(lia)) as [H1 H2]. split; [exact H2|]. intros _.
  replace (N.succ (N.log2 (N.pos p)) - 1)%N with (N.log2 (N.pos p)) by lia. exact H1.
Qed.

Lemma bit_length_unique n k : (0 < n)%N -> (2 ^ N.of_nat k <= n < 2 ^ N.of_nat (S k))%N -> bit_length n = S k.
Proof.
  intros Hn [H1 H2]. destruct n as [|p]; [lia|]. cbn [bit_length]. rewrite pos_bits_log2. f_equal.
  rewrite (N.log2_unique (N.pos p) (N.of_nat k)); [lia|lia|]. split; [exact H1|]. replace (N.succ (N.of_nat k)) with (N.of_nat (S k)) by lia. exact H2.
Qed.

Lemma log2_pow k : log2 (2 ^ N.of_nat k) = k.
Proof.
  unfold log2. assert (Hp : (0 < 2 ^ N.of_nat k)%N) by (apply N.neq_0_lt_0; apply N.pow_nonzero; lia).
  destruct (N.eqb_spec (2 ^ N.of_nat k) 0) as [E|_]; [lia|]. destruct k as [|k]; [reflexivity|].
  apply bit_length_unique.
  - assert (2 <= 2 ^ N.of_nat (S k))%N; [|lia]. change 2%N with (2 ^ 1)%N at 1. apply N.pow_le_mono_r; lia.
  - rewrite Nnat.Nat2N.inj_succ, N.pow_succ_r' in *. assert (0 < 2 ^ N.of_nat k)%N by (apply N.neq_0_lt_0; apply N.pow_nonzero; lia). lia.
Qed.

Lemma byte_lt (b : byte) : (Byte.to_N b < 256)%N.
Proof. pose proof (Byte.to_N_bounded b). lia. Qed.

Lemma partition_small b k : k <= 8 -> partition_msb b k = (Byte.to_N b / 2 ^ (8 - N.of_nat k))%N.
Proof.
  intros Hk. unfold partition_msb. rewrite N.mod_small with (a := N.of_nat k) by lia.
  destruct k as [|k].
  - replace ((264 - N.of_nat 0) mod 256)%N with 8%N by reflexivity. apply N.shiftr_div_pow2.
  - replace (264 - N.of_nat (S k))%N with (8 - N.of_nat (S k) + 1 * 256)%N by lia. rewrite N.mod_add by lia.
    rewrite N.mod_small by lia. apply N.shiftr_div_pow2.
Qed.

Lemma partition_large b k : 8 < k < 256 -> partition_msb b k = 0%N.
Proof.
  intros Hk. unfold partition_msb. rewrite N.mod_small with (a := N.of_nat k) by lia. rewrite N.mod_small by lia.
  apply N.shiftr_eq_0_iff. destruct (N.eq_dec (Byte.to_N b) 0) as [E|E]; [left; exact E|]. right. split; [lia|].
  apply N.lt_le_trans with 8%N; [|lia]. apply N.log2_lt_pow2; [lia|]. pose proof (byte_lt b). exact H.
Qed.

Lemma pow_split k : k <= 8 -> (2 ^ N.of_nat k * 2 ^ (8 - N.of_nat k) = 256)%N.
Proof. intros Hk. rewrite <- N.pow_add_r. replace (N.of_nat k + (8 - N.of_nat k))%N with 8%N by lia. reflexivity. Qed.

Lemma partition_range b k : k <= 8 -> (partition_msb b k < 2 ^ N.of_nat k)%N.
Proof.
  intros Hk. rewrite partition_small by exact Hk. apply N.div_lt_upper_bound; [apply N.pow_nonzero; lia|].
  rewrite N.mul_comm, pow_split by exact Hk. apply byte_lt.
Qed.

Lemma partition_onto k s : k <= 8 -> (s < 2 ^ N.of_nat k)%N -> exists b, partition_msb b k = s.
Proof.
  intros Hk Hs. set (v := (s * 2 ^ (8 - N.of_nat k))%N).
  assert (Hq : (0 < 2 ^ (8 - N.of_nat k))%N) by (apply N.neq_0_lt_0; apply N.pow_nonzero; lia).
  assert (Hv : (v < 256)%N).
  { unfold v. rewrite <- (pow_split k Hk). apply N.mul_lt_mono_pos_r; assumption. }
  destruct (Byte.of_N v) as [b|] eqn:E.
  - exists b. rewrite partition_small by exact Hk. apply Byte.to_of_N in E. rewrite E. unfold v. apply N.div_mul. lia.
  - exfalso. apply Byte.of_N_None_iff in E. lia.
Qed.

Lemma log2_spec n : (2 <= n)%N -> (2 ^ (N.of_nat (log2 n) - 1) < n <= 2 ^ N.of_nat (log2 n))%N.
Proof.
  intros Hn. unfold log2. destruct (N.eqb_spec n 0) as [E|_]; [lia|]. destruct (bit_length_spec (n - 1)) as [H1 H2]. specialize (H2 ltac:(lia)). lia.
Qed.

Lemma log2_mono a b : (2 <= a <= b)%N -> log2 a <= log2 b.
Proof.
  intros [Ha Hab]. pose proof (log2_spec a Ha) as [H1 _]. pose proof (log2_spec b ltac:(lia)) as [_ H2].
  assert (2 ^ (N.of_nat (log2 a) - 1) < 2 ^ N.of_nat (log2 b))%N by lia. apply N.pow_lt_mono_r_iff in H; lia.
Qed.

Lemma shard_in_range_iff n : (1 <= n < 2 ^ 64)%N ->
  (forall id, (shard n id < n)%N) <-> (exists k, n = (2 ^ N.of_nat k)%N) \/ (256 < n)%N.
Proof.
  intros Hn. split.
  - intros H. destruct (N.ltb_spec 256 n) as [Hb|Hb]; [right; exact Hb|]. left.
    destruct (N.eq_dec n 1) as [->|H1]; [exists 0; reflexivity|]. exists (log2 n).
    pose proof (log2_spec n ltac:(lia)) as [Hlo Hhi].
    assert (Hk : log2 n <= 8).
    { pose proof (log2_mono n 256 ltac:(lia)) as Hm. change (log2 256) with 8 in Hm. exact Hm. }
    destruct (N.eq_dec n (2 ^ N.of_nat (log2 n))) as [E|E]; [exact E|].
    destruct (partition_onto (log2 n) n Hk ltac:(lia)) as [b Eb]. specialize (H [b]). unfold shard in H. cbn [hd] in H. lia.
  - intros [[k ->]|Hb] id; unfold shard.
    + rewrite log2_pow. destruct (Nat.le_gt_cases k 8) as [Hk|Hk]; [apply partition_range; exact Hk|].
      rewrite partition_large; [apply N.neq_0_lt_0; apply N.pow_nonzero; lia|]. split; [exact Hk|].
      destruct Hn as [_ Hn]. apply N.pow_lt_mono_r_iff in Hn; lia.
    + assert (Hk : 8 < log2 n < 256).
      { pose proof (log2_mono 257 n ltac:(lia)) as Hm. change (log2 257) with 9 in Hm. split; [lia|].
        pose proof (log2_mono n (2 ^ N.of_nat 64) ltac:(split; [lia|]; apply N.lt_le_incl; change (N.of_nat 64) with 64%N; lia)) as Hm2.
        rewrite log2_pow in Hm2. lia. }
      rewrite partition_large by exact Hk. lia.
Qed.

(** ** Batching *)
Section Batching.
  Context {A : Type}.
  Variable m : nat.
  Hypothesis Hm : 0 < m.

  Lemma batch_items_ok (xs cur : list A) outs last : length cur < m -> batch_items m cur xs = (outs, last) ->
    concat outs ++ last = cur ++ xs /\ Forall (fun b => length b = m) outs /\ length last < m.
  Proof.
    revert cur outs last. induction xs as [|x xs IH]; intros cur outs last Hc E.
    - cbn in E. injection E as <- <-. rewrite app_nil_r. split; [reflexivity|]. split; [constructor | exact Hc].
    - cbn [batch_items] in E. unfold batch_item in E. rewrite app_length in E. cbn [length] in E.
      destruct (Nat.eqb_spec (length cur + 1) m) as [Ef|Ef].
      + destruct (batch_items m [] xs) as [o l] eqn:E2. injection E as <- <-.
        destruct (IH [] o l Hm E2) as (H1 & H2 & H3). cbn [concat app]. split.
        * rewrite <- app_assoc, H1. rewrite <- app_assoc. reflexivity.
        * split; [|exact H3]. constructor; [rewrite app_length; cbn; lia | exact H2].
      + destruct (batch_items m (cur ++ [x]) xs) as [o l] eqn:E2. injection E as <- <-.
        destruct (IH (cur ++ [x]) o l ltac:(rewrite app_length; cbn; lia) E2) as (H1 & H2 & H3). cbn [app]. split.
        * rewrite H1, <- app_assoc. reflexivity.
        * split; assumption.
  Qed.
End Batching.

(** ** Ring *)
Lemma rotations_ok size cur k : 0 < size -> cur < size ->
  rotations size cur k = map (fun i => (cur + i) mod size) (seq 0 k).
Proof.
  intros Hs. revert cur. induction k as [|k IH]; intros cur Hc; [reflexivity|]. cbn [rotations rotate seq map].
  rewrite Nat.add_0_r, (Nat.mod_small cur) by exact Hc. f_equal. rewrite IH by (apply Nat.mod_upper_bound; lia).
  rewrite <- seq_shift, map_map. apply map_ext. intros i. rewrite Nat.add_mod_idemp_l by lia. f_equal. lia.
Qed.

Lemma nth_map_seq0 {B} (f : nat -> B) i k d : i < k -> nth i (map f (seq 0 k)) d = f i.
Proof.
  intros H. rewrite (nth_indep _ d (f 0)) by (rewrite map_length, seq_length; exact H). rewrite map_nth, seq_nth by exact H. reflexivity.
Qed.

Lemma mod_gap n i j : 0 < n -> i < j -> i mod n = j mod n -> n <= j - i.
Proof.
  intros Hn Hij E. pose proof (Nat.div_mod i n ltac:(lia)) as H1. pose proof (Nat.div_mod j n ltac:(lia)) as H2. rewrite E in H1.
  assert (Hq : i / n < j / n) by (apply Nat.nle_gt; intros Hle; pose proof (Nat.mul_le_mono_l _ _ n Hle); lia).
  pose proof (Nat.mul_le_mono_l (i / n + 1) (j / n) n ltac:(lia)). lia.
Qed.

Lemma rotations_reuse size k i j : 0 < size -> i < j < k ->
  nth i (rotations size 0 k) 0 = nth j (rotations size 0 k) 0 -> size <= j - i.
Proof.
  intros Hs Hij. rewrite rotations_ok by lia. rewrite !nth_map_seq0 by lia. cbn [plus]. intros E.
  apply mod_gap; [exact Hs | lia | exact E].
Qed.

(** The buffers held, seen from the producer: stage [s] holds a buffer at most [s+1] behind the next one to hand over, and the
    numbers decrease along the stages. *)
Definition next_no (p : producer) : nat := match p with Filling j => j | Handing j => j end.
Definition ring_inv (st : ring_sys) : Prop :=
  forall s i, nth_error (held st) s = Some (Some i) ->
    i < next_no (prod st) /\
    (forall j, i < j < next_no (prod st) -> exists s', s' < s /\ nth_error (held st) s' = Some (Some j)).

Lemma nth_error_set_nth {A} i j (x : A) l : i < length l ->
  nth_error (set_nth i x l) j = if Nat.eqb j i then Some x else nth_error l j.
Proof.
  revert i j. induction l as [|y l IH]; intros i j Hi; [cbn in Hi; lia|]. destruct i as [|i], j as [|j]; cbn; try reflexivity.
  apply IH. cbn in Hi. lia.
Qed.

Lemma nth_some_error {A} (l : list (option A)) s i : nth s l None = Some i -> nth_error l s = Some (Some i).
Proof. revert s. induction l as [|x l IH]; intros [|s]; cbn; try discriminate; [intros ->; reflexivity | apply IH]. Qed.

Lemma ring_step_inv st a st' : ring_inv st -> ring_step st a = Some st' -> ring_inv st' /\ length (held st') = length (held st).
Proof.
  destruct st as [p h]. intros HI E. destruct a as [| |s|]; cbn [ring_step prod held] in E.
  - destruct p as [j|j]; [|discriminate E]. injection E as <-. split; [exact HI | reflexivity].
  - destruct p as [j|j]; [discriminate E|]. destruct h as [|[x|] rest]; try discriminate E. injection E as <-.
    split; [|reflexivity]. intros s i Hs. cbn [prod held next_no] in *. destruct s as [|s].
    + cbn in Hs. injection Hs as ->. split; [lia|]. intros k Hk. lia.
    + cbn in Hs. destruct (HI (S s) i Hs) as [H1 H2]. cbn [prod next_no] in H1. split; [lia|]. intros k Hk.
      destruct (Nat.eq_dec k j) as [->|Hne]; [exists 0; split; [lia | reflexivity]|].
      destruct (H2 k ltac:(cbn [prod next_no]; lia)) as (s' & Hs' & Hk'). cbn [held] in Hk'. destruct s' as [|s']; [discriminate Hk'|].
      exists (S s'). split; [exact Hs' | exact Hk'].
  - destruct (nth s h None) as [i|] eqn:Ei; [|discriminate E]. destruct (nth_error h (S s)) as [[?|]|] eqn:En; try discriminate E.
    assert (E' : st' = {| prod := p; held := set_nth (S s) (Some i) (set_nth s None h) |}) by (injection E as <-; reflexivity).
    clear E. subst st'. apply nth_some_error in Ei. assert (Hl : S s < length h) by (apply nth_error_Some; rewrite En; discriminate).
    assert (Hl' : s < length h) by lia.
    assert (Hnew : forall t, nth_error (set_nth (S s) (Some i) (set_nth s None h)) t =
                             if Nat.eqb t (S s) then Some (Some i) else if Nat.eqb t s then Some None else nth_error h t).
    { intros t. rewrite nth_error_set_nth by (rewrite set_nth_length; exact Hl). rewrite nth_error_set_nth by exact Hl'. reflexivity. }
    split; [|exact (eq_trans (set_nth_length _ _ _) (set_nth_length _ _ _))]. intros t k Ht. cbn [prod held] in *. rewrite Hnew in Ht.
    destruct (Nat.eqb_spec t (S s)) as [->|Hts].
    + injection Ht as <-. destruct (HI s i Ei) as [H1 H2]. cbn [prod] in *. split; [exact H1|]. intros j Hj.
      destruct (H2 j Hj) as (s' & Hs' & Hj'). exists s'. split; [lia|]. rewrite Hnew.
      destruct (Nat.eqb_spec s' (S s)); [lia|]. destruct (Nat.eqb_spec s' s); [lia|]. exact Hj'.
    + destruct (Nat.eqb_spec t s) as [->|Hts2]; [discriminate Ht|]. destruct (HI t k Ht) as [H1 H2]. cbn [prod] in *.
      split; [exact H1|]. intros j Hj. destruct (H2 j Hj) as (s' & Hs' & Hj'). cbn [held] in Hj'.
      destruct (Nat.eq_dec s' s) as [->|Hne].
      * exists (S s). split; [lia|]. rewrite Hnew, Nat.eqb_refl. rewrite Hj' in Ei. injection Ei as ->. reflexivity.
      * exists s'. split; [exact Hs'|]. rewrite Hnew. destruct (Nat.eqb_spec s' (S s)) as [->|].
        { rewrite En in Hj'. discriminate Hj'. }
        destruct (Nat.eqb_spec s' s); [lia|]. exact Hj'.
  - destruct (nth (length h - 1) h None) as [i|] eqn:Ei; [|discriminate E]. injection E as <-.
    apply nth_some_error in Ei. assert (Hl : length h - 1 < length h) by (apply nth_error_Some; rewrite Ei; discriminate).
    split; [|apply set_nth_length]. intros t k Ht. cbn [prod held] in *.
    rewrite nth_error_set_nth in Ht by exact Hl. destruct (Nat.eqb_spec t (length h - 1)) as [->|Hne]; [discriminate Ht|].
    destruct (HI t k Ht) as [H1 H2]. cbn [prod held] in *. split; [exact H1|]. intros j Hj. destruct (H2 j Hj) as (s' & Hs' & Hj').
    exists s'. split; [exact Hs'|]. rewrite nth_error_set_nth by exact Hl.
    assert (Htl : t < length h) by (apply nth_error_Some; rewrite Ht; discriminate).
    destruct (Nat.eqb_spec s' (length h - 1)); [lia|]. exact Hj'.
Qed.

Lemma ring_run_inv st l : ring_inv st -> ring_inv (ring_run st l) /\ length (held (ring_run st l)) = length (held st).
Proof.
  revert st. induction l as [|a l IH]; intros st HI; [split; [exact HI | reflexivity]|]. unfold ring_run in *. cbn [fold_left].
  unfold ring_do at 2 4. destruct (ring_step st a) as [st'|] eqn:E.
  - destruct (ring_step_inv st a st' HI E) as [HI' Hlen]. destruct (IH st' HI') as [H1 H2]. split; [exact H1|]. rewrite H2. exact Hlen.
  - apply IH. exact HI.
Qed.

(** Numbers held before stage [s] fill the gap up to the next number, so the gap is at most [s]. *)
Lemma gap_bound (h : list (option nat)) s lo n : (forall j, lo < j < lo + 1 + n -> exists s', s' < s /\ nth_error h s' = Some (Some j)) -> n <= s.
Proof.
  intros H.
  assert (G : forall n s lo, (forall j, lo < j < lo + 1 + n -> exists s', s' < s /\ nth_error h s' = Some (Some j)) ->
    exists ss, length ss = n /\ NoDup ss /\ (forall x, In x ss -> x < s /\ exists j, lo < j < lo + 1 + n /\ nth_error h x = Some (Some j))).
  { clear. intros n. induction n as [|n IH]; intros s lo H; [exists []; split; [reflexivity | split; [constructor | intros x []]]|].
    destruct (IH s lo) as (ss & Hl & Hnd & Hin); [intros j Hj; apply H; lia|].
    destruct (H (lo + 1 + n) ltac:(lia)) as (s' & Hs' & Hj'). exists (s' :: ss). split; [cbn; lia|]. split.
    - constructor; [|exact Hnd]. intros Hx. destruct (Hin _ Hx) as (_ & j & Hj & Ej). rewrite Hj' in Ej. injection Ej as Ej. lia.
    - intros x [<-|Hx]; [split; [exact Hs'|]; exists (lo + 1 + n); split; [lia | exact Hj']|].
      destruct (Hin x Hx) as (Hxs & j & Hj & Ej). split; [exact Hxs|]. exists j. split; [lia | exact Ej]. }
  destruct (G n s lo H) as (ss & Hl & Hnd & Hin). rewrite <- Hl. rewrite <- (seq_length s 0). apply NoDup_incl_length; [exact Hnd|].
  intros x Hx. apply in_seq. destruct (Hin x Hx). lia.
Qed.

Lemma ring_safe N d (ahead : bool) l i t : d + (if ahead then 2 else 1) <= N ->
  let st := ring_run (ring_start d) l in
  In (Some i) (held st) -> In t (touched ahead (prod st)) -> i mod N <> t mod N.
Proof.
  intros HN st Hi Ht. unfold st in *. clear st.
  destruct (ring_run_inv (ring_start d) l) as [HI Hlen].
  { intros s k Hs. cbn in Hs. apply nth_error_In in Hs. apply repeat_spec in Hs. discriminate Hs. }
  cbn [ring_start held] in Hlen. rewrite repeat_length in Hlen.
  set (st := ring_run (ring_start d) l) in *. clearbody st.
  apply In_nth_error in Hi. destruct Hi as [s Hs]. destruct (HI s i Hs) as [H1 H2].
  assert (Hsd : s < d) by (rewrite <- Hlen; apply nth_error_Some; rewrite Hs; discriminate).
  assert (Hgap : next_no (prod st) - i - 1 <= s).
  { apply (gap_bound (held st) s i). intros j Hj. apply H2. lia. }
  assert (Hd : 0 < t - i < N).
  { destruct (prod st) as [j|j]; cbn in *; [destruct Ht as [<-|[]] | destruct ahead; [destruct Ht as [<-|[]] | destruct Ht]]; try (destruct ahead); lia. }
  intros E. pose proof (mod_gap N i t ltac:(lia) ltac:(lia) E). lia.
Qed.

(** ** Deduplication *)
Lemma lru_contains_iff c id : lru_contains c id = true <-> In id c.
Proof.
  unfold lru_contains. rewrite existsb_exists. split.
  - intros (x & Hx & E). apply beqb_eq in E. subst. exact Hx.
  - intros H. exists id. split; [exact H|]. apply beqb_refl.
Qed.
Lemma lru_add_in size c id x : In x (lru_add size c id) -> x = id \/ In x c.
Proof.
  unfold lru_add. intros H. 
  assert (G : In x (id :: filter (fun y => negb (beqb id y)) c)).
  { rewrite <- (firstn_skipn size). apply in_or_app. left. exact H. }
  destruct G as [<-|G]; [left; reflexivity|]. apply filter_In in G. right. tauto.
Qed.

(** A domain that has been dealt with: cached from the start, emitted, or about to be emitted by some worker. *)
Definition dealt (init : list bytes) (st : dedup) (x : bytes) : Prop :=
  In x init \/ (exists a, In a (stored st) /\ fst a = x) \/
  (exists w e a, nth_error (workers st) w = Some e /\ checked e = Some a /\ fst a = x).

Record dedup_inv (init : list bytes) (inputs : list (list assoc)) (st : dedup) : Prop := {
  di_len : length (workers st) = length inputs;
  di_cache : forall x, In x (dcache st) -> In x init \/ exists a, In a (stored st) /\ fst a = x;
  di_done : forall w e, nth_error (workers st) w = Some e ->
    exists l, nth_error inputs w = Some (l ++ todo e) /\ (forall a, In a l -> dealt init st (fst a)) /\
              (forall a, In a (emitted e) -> In a l) /\ (forall a, checked e = Some a -> In a l) }.

Lemma stored_in st a : In a (stored st) <-> exists w e, nth_error (workers st) w = Some e /\ In a (emitted e).
Proof.
  unfold stored. rewrite in_flat_map. split.
  - intros (e & He & Ha). apply In_nth_error in He. destruct He as [w Hw]. exists w, e. split; assumption.
  - intros (w & e & Hw & Ha). exists e. split; [exact (nth_error_In _ _ Hw) | exact Ha].
Qed.

Lemma extract_step_inv size init inputs st w : dedup_inv init inputs st -> dedup_inv init inputs (extract_step size st w).
Proof.
  intros HI. unfold extract_step. destruct (nth_error (workers st) w) as [e|] eqn:Ew; [|exact HI].
  destruct HI as [Hlen Hcache Hdone].
  assert (Hw : w < length (workers st)) by (apply nth_error_Some; rewrite Ew; discriminate).
  destruct (Hdone w e Ew) as (l & El & Hl & Hem & Hch).
  destruct (checked e) as [a|] eqn:Ec.
  - set (e' := {| todo := todo e; checked := None; emitted := emitted e ++ [a] |}).
    set (st' := {| dcache := lru_add size (dcache st) (fst a); workers := set_nth w e' (workers st) |}).
    assert (Hnth : forall v, nth_error (workers st') v = if Nat.eqb v w then Some e' else nth_error (workers st) v).
    { intros v. apply nth_error_set_nth. exact Hw. }
    assert (Hst : forall b, In b (stored st) -> In b (stored st')).
    { intros b Hb. apply stored_in in Hb. destruct Hb as (v & f & Hv & Hb). apply stored_in.
      destruct (Nat.eq_dec v w) as [->|Hne].
      - exists w, e'. rewrite Hnth, Nat.eqb_refl. split; [reflexivity|]. rewrite Ew in Hv. injection Hv as <-.
        cbn. apply in_or_app. left. exact Hb.
      - exists v, f. rewrite Hnth. destruct (Nat.eqb_spec v w); [contradiction|]. split; assumption. }
    assert (Hnew : In a (stored st')).
    { apply stored_in. exists w, e'. rewrite Hnth, Nat.eqb_refl. split; [reflexivity|]. cbn. apply in_or_app. right. left. reflexivity. }
    assert (Hde : forall x, dealt init st x -> dealt init st' x).
    { intros x [H|[(b & Hb & E)|(v & f & b & Hv & Hc & E)]]; [left; exact H | right; left; exists b; split; [apply Hst; exact Hb | exact E]|].
      destruct (Nat.eq_dec v w) as [->|Hne].
      - rewrite Ew in Hv. injection Hv as <-. rewrite Ec in Hc. injection Hc as <-. right. left. exists a. split; assumption.
      - right. right. exists v, f, b. rewrite Hnth. destruct (Nat.eqb_spec v w); [contradiction|]. split; [exact Hv|]. split; assumption. }
    constructor.
    + cbn. rewrite set_nth_length. exact Hlen.
    + intros x Hx. apply lru_add_in in Hx. destruct Hx as [->|Hx]; [right; exists a; split; [exact Hnew | reflexivity]|].
      destruct (Hcache x Hx) as [H|(b & Hb & E)]; [left; exact H|]. right. exists b. split; [apply Hst; exact Hb | exact E].
    + intros v f Hv. rewrite Hnth in Hv. destruct (Nat.eqb_spec v w) as [->|Hne].
      * injection Hv as <-. exists l. split; [exact El|]. split; [intros b Hb; apply Hde, Hl, Hb|]. split; [|discriminate].
        intros b Hb. cbn in Hb. apply in_app_or in Hb. destruct Hb as [Hb|[<-|[]]]; [apply Hem; exact Hb | apply Hch; reflexivity].
      * destruct (Hdone v f Hv) as (l2 & El2 & Hl2 & Hem2 & Hch2). exists l2. split; [exact El2|].
        split; [intros b Hb; apply Hde, Hl2, Hb|]. split; assumption.
  - destruct (todo e) as [|a rest] eqn:Et; [constructor; assumption|].
    set (ck := if lru_contains (dcache st) (fst a) then None else Some a).
    set (e' := {| todo := rest; checked := ck; emitted := emitted e |}).
    set (st' := {| dcache := dcache st; workers := set_nth w e' (workers st) |}).
    assert (Hnth : forall v, nth_error (workers st') v = if Nat.eqb v w then Some e' else nth_error (workers st) v).
    { intros v. apply nth_error_set_nth. exact Hw. }
    assert (Hst : forall b, In b (stored st) -> In b (stored st')).
    { intros b Hb. apply stored_in in Hb. destruct Hb as (v & f & Hv & Hb). apply stored_in.
      destruct (Nat.eq_dec v w) as [->|Hne].
      - exists w, e'. rewrite Hnth, Nat.eqb_refl. split; [reflexivity|]. rewrite Ew in Hv. injection Hv as <-. exact Hb.
      - exists v, f. rewrite Hnth. destruct (Nat.eqb_spec v w); [contradiction|]. split; assumption. }
    assert (Hde : forall x, dealt init st x -> dealt init st' x).
    { intros x [H|[(b & Hb & E)|(v & f & b & Hv & Hc & E)]]; [left; exact H | right; left; exists b; split; [apply Hst; exact Hb | exact E]|].
      destruct (Nat.eq_dec v w) as [->|Hne].
      - rewrite Ew in Hv. injection Hv as <-. rewrite Ec in Hc. discriminate Hc.
      - right. right. exists v, f, b. rewrite Hnth. destruct (Nat.eqb_spec v w); [contradiction|]. split; [exact Hv|]. split; assumption. }
    constructor.
    + cbn. rewrite set_nth_length. exact Hlen.
    + intros x Hx. destruct (Hcache x Hx) as [H|(b & Hb & E)]; [left; exact H|]. right. exists b. split; [apply Hst; exact Hb | exact E].
    + intros v f Hv. rewrite Hnth in Hv. destruct (Nat.eqb_spec v w) as [->|Hne].
      * injection Hv as <-. exists (l ++ [a]). split; [rewrite <- app_assoc; exact El|]. split.
        { intros b Hb. apply in_app_or in Hb. destruct Hb as [Hb|[<-|[]]]; [apply Hde, Hl, Hb|].
          destruct (lru_contains (dcache st) (fst a)) eqn:Ecc.
          - apply lru_contains_iff in Ecc. destruct (Hcache _ Ecc) as [H|(b & Hb & E)]; [left; exact H|].
            right. left. exists b. split; [apply Hst; exact Hb | exact E].
          - right. right. exists w, e', a. rewrite Hnth, Nat.eqb_refl. split; [reflexivity|]. split; reflexivity. }
        split; [intros b Hb; apply in_or_app; left; apply Hem; exact Hb|].
        intros b Hb. cbn in Hb. unfold ck in Hb. destruct (lru_contains (dcache st) (fst a)); [discriminate Hb|].
        injection Hb as <-. apply in_or_app. right. left. reflexivity.
      * destruct (Hdone v f Hv) as (l2 & El2 & Hl2 & Hem2 & Hch2). exists l2. split; [exact El2|].
        split; [intros b Hb; apply Hde, Hl2, Hb|]. split; assumption.
Qed.

Lemma extract_start_inv init inputs : dedup_inv init inputs (extract_start init inputs).
Proof.
  constructor.
  - cbn. apply map_length.
  - intros x Hx. left. exact Hx.
  - intros w e Hw. cbn in Hw. rewrite nth_error_map in Hw. destruct (nth_error inputs w) as [l|] eqn:El; [|discriminate Hw].
    injection Hw as <-. exists []. split; [reflexivity|]. split; [intros a []|]. split; [intros a [] | discriminate].
Qed.

Lemma extract_run_inv size init inputs sched : dedup_inv init inputs (extract_run size (extract_start init inputs) sched).
Proof.
  unfold extract_run. assert (G : forall st, dedup_inv init inputs st -> dedup_inv init inputs (fold_left (extract_step size) sched st)).
  { induction sched as [|w sched IH]; intros st H; [exact H|]. cbn. apply IH. apply extract_step_inv. exact H. }
  apply G. apply extract_start_inv.
Qed.

Lemma dedup_final size init inputs sched :
  let st := extract_run size (extract_start init inputs) sched in
  (forall a, In a (stored st) -> In a (concat inputs)) /\
  (extracted_all st = true -> forall a, In a (concat inputs) -> In (fst a) init \/ exists b, In b (stored st) /\ fst b = fst a).
Proof.
  intros st. pose proof (extract_run_inv size init inputs sched) as HI. fold st in HI. clearbody st. destruct HI as [Hlen Hcache Hdone]. split.
  - intros a Ha. apply stored_in in Ha. destruct Ha as (w & e & Hw & Ha). destruct (Hdone w e Hw) as (l & El & _ & Hem & _).
    apply in_concat. exists (l ++ todo e). split; [exact (nth_error_In _ _ El)|]. apply in_or_app. left. apply Hem, Ha.
  - intros Hall a Ha. apply in_concat in Ha. destruct Ha as (l & Hl & Ha). apply In_nth_error in Hl. destruct Hl as [w Hw].
    unfold extracted_all in Hall. rewrite forallb_forall in Hall.
    assert (Hwl : w < length (workers st)) by (rewrite Hlen; apply nth_error_Some; rewrite Hw; discriminate).
    destruct (nth_error (workers st) w) as [e|] eqn:Ew; [|apply nth_error_None in Ew; lia].
    destruct (Hdone w e Ew) as (l2 & El2 & Hl2 & _). pose proof (Hall e (nth_error_In _ _ Ew)) as He.
    destruct (todo e) eqn:Et; [|discriminate He]. rewrite app_nil_r in El2. rewrite Hw in El2. injection El2 as <-.
    destruct (Hl2 a Ha) as [H|[H|(v & f & b & Hv & Hc & _)]]; [left; exact H | right; exact H|]. exfalso.
    pose proof (Hall f (nth_error_In _ _ Hv)) as Hf. rewrite Hc in Hf. destruct (todo f); discriminate Hf.
Qed.

(** ** Round robin *)
Section RoundRobin.
  Context {A : Type}.

  Lemma set_nth_perm (l : list A) i x y : nth_error l i = Some x -> exists r, Permutation l (x :: r) /\ Permutation (set_nth i y l) (y :: r).
  Proof.
    revert i. induction l as [|z l IH]; intros [|i] E; try discriminate E.
    - cbn in E. injection E as ->. exists l. split; apply Permutation_refl.
    - cbn in E. destruct (IH i E) as (r & H1 & H2). exists (z :: r). cbn [set_nth]. split.
      + rewrite H1. apply perm_swap.
      + rewrite H2. apply perm_swap.
  Qed.
End RoundRobin.

Section RoundRobin2.
  Context {A : Type}.

  Lemma remove_perm (chans : list (list A)) i c : nth_error chans i = Some c -> Permutation chans (c :: remove_elem [] chans i).
  Proof.
    intros E. assert (Hi : i < length chans) by (apply nth_error_Some; rewrite E; discriminate).
    rewrite (remove_elem_ok [] chans i Hi). apply nth_error_split in E. destruct E as (l1 & l2 & -> & Hl).
    rewrite (firstn_app_exact l1) by exact Hl.
    replace (skipn (S i) (l1 ++ c :: l2)) with l2.
    - symmetry. apply Permutation_middle.
    - replace (l1 ++ c :: l2) with ((l1 ++ [c]) ++ l2) by (rewrite <- app_assoc; reflexivity). symmetry. apply skipn_app_exact.
      rewrite app_length. cbn. lia.
  Qed.

  Lemma concat_length_perm (a b : list (list A)) : Permutation a b -> length (concat a) = length (concat b).
  Proof. intros H. induction H; cbn; rewrite ?app_length in *; cbn in *; lia. Qed.

  Lemma read_seq_ok fuel (chans : list (list A)) i : i < length chans -> length (concat chans) + length chans <= fuel ->
    exists out, read_seq fuel chans i = Some out.
  Proof.
    revert chans i. induction fuel as [|fuel IH]; intros chans i Hi Hf; [lia|]. cbn [read_seq].
    destruct (nth_error chans i) as [[|x rest]|] eqn:E; [| |apply nth_error_None in E; lia].
    - pose proof (remove_perm chans i [] E) as Hp. pose proof (Permutation_length Hp) as Hpl. pose proof (concat_length_perm _ _ Hp) as Hcl.
      cbn in Hpl, Hcl. destruct (remove_elem [] chans i) as [|c cs] eqn:Er; [exists []; reflexivity|].
      apply IH; [apply Nat.mod_upper_bound; cbn; lia|]. cbn in *. lia.
    - destruct (set_nth_perm chans i (x :: rest) rest E) as (r & H1 & H2).
      pose proof (concat_length_perm _ _ H1) as L1. pose proof (concat_length_perm _ _ H2) as L2. cbn [concat] in L1, L2.
      rewrite app_length in L1, L2. cbn [length] in L1.
      destruct (IH (set_nth i rest chans) ((i + 1) mod length chans)) as [out Eo].
      + rewrite set_nth_length. apply Nat.mod_upper_bound. lia.
      + rewrite set_nth_length. lia.
      + rewrite Eo. eexists. reflexivity.
  Qed.

  Lemma read_seq_filter (P : A -> bool) fuel chans i out c l : Permutation chans (c :: l) ->
    (forall c', In c' l -> filter P c' = []) -> read_seq fuel chans i = Some out -> filter P out = filter P c.
  Proof.
    revert chans i out c l. induction fuel as [|fuel IH]; intros chans i out c l Hp Hl E; [discriminate E|]. cbn [read_seq] in E.
    destruct (nth_error chans i) as [[|x rest]|] eqn:Ei; [| |discriminate E].
    - pose proof (remove_perm chans i [] Ei) as Hq. set (cs := remove_elem [] chans i) in *.
      assert (Hcl : Permutation ([] :: cs) (c :: l)) by (rewrite <- Hq; exact Hp).
      assert (Hin : In [] (c :: l)) by (apply (Permutation_in _ Hcl); left; reflexivity).
      clearbody cs. destruct cs as [|c1 cs].
      + injection E as <-. apply Permutation_length_1_inv in Hcl. injection Hcl as -> _. reflexivity.
      + destruct Hin as [->|Hin].
        * apply Permutation_cons_inv in Hcl. cbn [filter].
          assert (G : forall c', In c' (c1 :: cs) -> filter P c' = []) by (intros c' Hc'; apply Hl; apply (Permutation_in _ Hcl); exact Hc').
          rewrite (IH _ _ _ c1 cs (Permutation_refl _) (fun c' H => G c' (or_intror H)) E). apply G. left. reflexivity.
        * apply in_split in Hin. destruct Hin as (l1 & l2 & ->).
          assert (Hc2 : Permutation (c1 :: cs) (c :: l1 ++ l2)).
          { apply (Permutation_cons_inv (a := [])). rewrite Hcl.
            rewrite perm_swap. constructor. symmetry. apply Permutation_middle. }
          refine (IH _ _ _ c (l1 ++ l2) Hc2 _ E). intros c' Hc'. apply Hl. apply in_app_or in Hc'. apply in_or_app. cbn. tauto.
    - destruct (set_nth_perm chans i (x :: rest) rest Ei) as (r & H1 & H2).
      destruct (read_seq fuel (set_nth i rest chans) ((i + 1) mod length chans)) as [out'|] eqn:Eo; [|discriminate E]. injection E as <-.
      assert (Hcl : Permutation ((x :: rest) :: r) (c :: l)) by (rewrite <- H1; exact Hp).
      assert (Hin : In (x :: rest) (c :: l)) by (apply (Permutation_in _ Hcl); left; reflexivity).
      destruct Hin as [->|Hin].
      + apply Permutation_cons_inv in Hcl. cbn [filter]. rewrite (IH _ _ _ rest r H2 (fun c' Hc' => Hl c' (Permutation_in _ Hcl Hc')) Eo). reflexivity.
      + pose proof (Hl _ Hin) as Hx. cbn [filter] in Hx. destruct (P x) eqn:Px; [discriminate Hx|].
        apply in_split in Hin. destruct Hin as (l1 & l2 & ->).
        assert (Hc2 : Permutation r (c :: l1 ++ l2)).
        { apply (Permutation_cons_inv (a := x :: rest)). rewrite Hcl. rewrite perm_swap. constructor. symmetry. apply Permutation_middle. }
        cbn [filter]. rewrite Px. apply (IH _ _ _ c (rest :: l1 ++ l2)) in Eo.
        * exact Eo.
        * rewrite H2, Hc2. apply perm_swap.
        * intros c' [<-|Hc']; [exact Hx|]. apply Hl. apply in_app_or in Hc'. apply in_or_app. cbn. tauto.
  Qed.

  Lemma read_seq_in fuel (chans : list (list A)) i out x : read_seq fuel chans i = Some out -> In x out -> In x (concat chans).
  Proof.
    revert chans i out. induction fuel as [|fuel IH]; intros chans i out E Hx; [discriminate E|]. cbn [read_seq] in E.
    destruct (nth_error chans i) as [[|y rest]|] eqn:Ei; [| |discriminate E].
    - pose proof (remove_perm chans i [] Ei) as Hq. destruct (remove_elem [] chans i) as [|c1 cs] eqn:Er; [injection E as <-; destruct Hx|].
      pose proof (IH _ _ _ E Hx) as G. apply in_concat in G. destruct G as (c & Hc & Hxc). apply in_concat. exists c. split; [|exact Hxc].
      apply (Permutation_in _ (Permutation_sym Hq)). right. exact Hc.
    - destruct (set_nth_perm chans i (y :: rest) rest Ei) as (r & H1 & H2).
      destruct (read_seq fuel (set_nth i rest chans) ((i + 1) mod length chans)) as [out'|] eqn:Eo; [|discriminate E]. injection E as <-.
      destruct Hx as [->|Hx].
      + apply in_concat. exists (x :: rest). split; [exact (nth_error_In _ _ Ei) | left; reflexivity].
      + pose proof (IH _ _ _ Eo Hx) as G. apply in_concat in G. destruct G as (c & Hc & Hxc). apply (Permutation_in _ H2) in Hc.
        apply in_concat. destruct Hc as [<-|Hc].
        * exists (y :: rest). split; [exact (nth_error_In _ _ Ei) | right; exact Hxc].
        * exists c. split; [|exact Hxc]. apply (Permutation_in _ (Permutation_sym H1)). right. exact Hc.
  Qed.
End RoundRobin2.

Lemma remove_elem_map {A B} (f : list A -> list B) (chans : list (list A)) i : f [] = [] ->
  remove_elem [] (map f chans) i = map f (remove_elem [] chans i).
Proof.
  intros Hf. unfold remove_elem. rewrite map_length, <- firstn_map. f_equal.
  assert (E : nth (length chans - 1) (map f chans) [] = f (nth (length chans - 1) chans [])).
  { rewrite <- (map_nth f chans [] (length chans - 1)), Hf. reflexivity. }
  rewrite E. generalize (nth (length chans - 1) chans []). intros y. clear E. revert i.
  induction chans as [|c cs IH]; intros [|i]; cbn; try reflexivity. f_equal. apply IH.
Qed.

Lemma set_nth_map {A B} (f : A -> B) (l : list A) i y : set_nth i (f y) (map f l) = map f (set_nth i y l).
Proof. revert i. induction l as [|x l IH]; intros [|i]; cbn; try reflexivity. f_equal. apply IH. Qed.

Lemma read_seq_map {A B} (f : A -> B) fuel chans i : read_seq fuel (map (map f) chans) i = option_map (map f) (read_seq fuel chans i).
Proof.
  revert chans i. induction fuel as [|fuel IH]; intros chans i; [reflexivity|]. cbn [read_seq]. rewrite nth_error_map.
  destruct (nth_error chans i) as [[|x rest]|]; cbn [option_map map]; [| |reflexivity].
  - rewrite (remove_elem_map (map f)) by reflexivity. destruct (remove_elem [] chans i) as [|c cs]; [reflexivity|].
    cbn [map]. change (map f c :: map (map f) cs) with (map (map f) (c :: cs)). rewrite IH, map_length. reflexivity.
  - rewrite set_nth_map, IH, map_length. destruct (read_seq fuel (set_nth i rest chans) ((i + 1) mod length chans)); reflexivity.
Qed.

(** Items tagged with the number of their channel. *)
Fixpoint tag_from {A} (k : nat) (chans : list (list A)) : list (list (nat * A)) :=
  match chans with [] => [] | c :: cs => map (pair k) c :: tag_from (S k) cs end.
Lemma tag_from_snd {A} k (chans : list (list A)) : map (map snd) (tag_from k chans) = chans.
Proof. revert k. induction chans as [|c cs IH]; intros k; [reflexivity|]. cbn. rewrite IH, map_map, map_id. reflexivity. Qed.
Lemma tag_from_length {A} k (chans : list (list A)) : length (tag_from k chans) = length chans.
Proof. revert k. induction chans as [|c cs IH]; intros k; [reflexivity|]. cbn. rewrite IH. reflexivity. Qed.
Lemma tag_from_nth {A} k (chans : list (list A)) j : nth j (tag_from k chans) [] = map (pair (k + j)) (nth j chans []).
Proof.
  revert k j. induction chans as [|c cs IH]; intros k [|j]; cbn; try reflexivity; [rewrite Nat.add_0_r; reflexivity|].
  rewrite IH. do 2 f_equal. lia.
Qed.
Lemma filter_all_false {A} (P : A -> bool) l : (forall x, In x l -> P x = false) -> filter P l = [].
Proof. induction l as [|x l IH]; intros H; [reflexivity|]. cbn. rewrite (H x (or_introl eq_refl)). apply IH. intros y Hy. apply H. right. exact Hy. Qed.
Lemma filter_all_true {A} (P : A -> bool) l : (forall x, In x l -> P x = true) -> filter P l = l.
Proof. induction l as [|x l IH]; intros H; [reflexivity|]. cbn. rewrite (H x (or_introl eq_refl)). f_equal. apply IH. intros y Hy. apply H. right. exact Hy. Qed.

Lemma tag_from_in {A} k (chans : list (list A)) c x : In c (tag_from k chans) -> In x c -> k <= fst x < k + length chans.
Proof.
  revert k. induction chans as [|d cs IH]; intros k Hc Hx; [destruct Hc|]. cbn in Hc. destruct Hc as [<-|Hc].
  - apply in_map_iff in Hx. destruct Hx as (y & <- & _). cbn. lia.
  - specialize (IH (S k) Hc Hx). cbn. lia.
Qed.

Lemma tag_from_split {A} (chans : list (list A)) k j : j < length chans ->
  exists l1 l2, tag_from k chans = l1 ++ map (pair (k + j)) (nth j chans []) :: l2 /\
    forall c x, In c (l1 ++ l2) -> In x c -> fst x <> k + j.
Proof.
  revert k j. induction chans as [|c cs IH]; intros k j Hj; [cbn in Hj; lia|]. destruct j as [|j].
  - exists [], (tag_from (S k) cs). cbn. rewrite Nat.add_0_r. split; [reflexivity|]. intros d x Hd Hx.
    pose proof (tag_from_in _ _ _ _ Hd Hx). lia.
  - cbn in Hj. destruct (IH (S k) j ltac:(lia)) as (l1 & l2 & E & H). exists (map (pair k) c :: l1), l2.
    cbn. rewrite E. replace (S k + j) with (k + S j) by lia. split; [reflexivity|]. intros d x [<-|Hd] Hx.
    + apply in_map_iff in Hx. destruct Hx as (y & <- & _). cbn. lia.
    + replace (k + S j) with (S k + j) by lia. exact (H d x Hd Hx).
Qed.

Lemma read_sequentially_ok {A} (chans : list (list A)) : chans <> [] ->
  exists out : list (nat * A), read_sequentially chans = Some (map snd out) /\
    (forall k, map snd (filter (fun p => fst p =? k) out) = nth k chans []).
Proof.
  intros Hne. assert (Hl : 0 < length chans) by (destruct chans; [contradiction | cbn; lia]).
  set (fuel := length (concat chans) + length chans).
  assert (Hcl : length (concat (tag_from 0 chans)) = length (concat chans)).
  { rewrite <- (tag_from_snd 0 chans) at 2. rewrite <- concat_map, map_length. reflexivity. }
  destruct (read_seq_ok fuel (tag_from 0 chans) 0) as [out E].
  - rewrite tag_from_length. exact Hl.
  - rewrite tag_from_length, Hcl. unfold fuel. lia.
  - exists out. split.
    + unfold read_sequentially. fold fuel. rewrite <- (tag_from_snd 0 chans), read_seq_map, E. reflexivity.
    + intros k. destruct (Nat.lt_ge_cases k (length chans)) as [Hk|Hk].
      * destruct (tag_from_split chans 0 k Hk) as (l1 & l2 & Et & Ho). cbn [plus] in Et, Ho.
        rewrite (read_seq_filter (fun p => fst p =? k) fuel (tag_from 0 chans) 0 out (map (pair k) (nth k chans [])) (l1 ++ l2)).
        -- rewrite filter_all_true; [rewrite map_map, map_id; reflexivity|]. intros x Hx. apply in_map_iff in Hx.
           destruct Hx as (y & <- & _). cbn. apply Nat.eqb_refl.
        -- rewrite Et. symmetry. apply Permutation_middle.
        -- intros c Hc. apply filter_all_false. intros x Hx. apply Nat.eqb_neq. exact (Ho c x Hc Hx).
        -- exact E.
      * rewrite (nth_overflow chans) by exact Hk. rewrite filter_all_false; [reflexivity|]. intros x Hx.
        apply (read_seq_in _ _ _ _ _ E) in Hx. apply in_concat in Hx. destruct Hx as (c & Hc & Hx).
        pose proof (tag_from_in _ _ _ _ Hc Hx). apply Nat.eqb_neq. lia.
Qed.
