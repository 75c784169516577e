(** Proofs about the verifier of the policy log (LogTreeModel.v). *)
From Verif Require Import Base LogTreeModel.

(** * Bits *)
Lemma ones_count_double n : ones_count (2 * n) = ones_count n.
Proof. destruct n; reflexivity. Qed.
Lemma ones_count_succ_double n : ones_count (2 * n + 1) = S (ones_count n).
Proof. destruct n; reflexivity. Qed.
Lemma bit_len_0 : bit_len 0 = 0.
Proof. reflexivity. Qed.
Lemma bit_len_double n : n <> 0%N -> bit_len (2 * n) = S (bit_len n).
Proof. unfold bit_len. destruct n as [|p]; [congruence|]. intros _. cbn. rewrite Pos2Nat.inj_succ. reflexivity. Qed.
Lemma bit_len_succ_double n : bit_len (2 * n + 1) = S (bit_len n).
Proof. unfold bit_len. destruct n as [|p]; [reflexivity|]. cbn. rewrite Pos2Nat.inj_succ. reflexivity. Qed.
Lemma bit_len_div2 n : n <> 0%N -> bit_len n = S (bit_len (N.div2 n)).
Proof.
  intros Hn. destruct n as [|[p|p|]]; [congruence| | |]; cbn [N.div2].
  - exact (bit_len_succ_double (Npos p)).
  - apply (bit_len_double (Npos p)). discriminate.
  - reflexivity.
Qed.
Lemma bit_len_shiftr s : forall n, N.shiftr n (N.of_nat s) <> 0%N -> bit_len (N.shiftr n (N.of_nat s)) = bit_len n - s.
Proof.
  induction s as [|s IH]; intros n Hn; [rewrite N.shiftr_0_r, Nat.sub_0_r; reflexivity|].
  rewrite Nat2N.inj_succ, N.shiftr_succ_r in *.
  assert (H2 : N.shiftr n (N.of_nat s) <> 0%N) by (intros E; rewrite E in Hn; apply Hn; reflexivity).
  specialize (IH n H2). rewrite (bit_len_div2 _ H2) in IH. lia.
Qed.
Lemma trailing_zeros_spec n : n <> 0%N -> exists q, (n = (2 * q + 1) * 2 ^ N.of_nat (trailing_zeros n))%N.
Proof.
  destruct n as [|p]; [congruence|]. intros _. cbn [trailing_zeros]. induction p as [p _|p IH|].
  - exists (Npos p). rewrite N.pow_0_r. lia.
  - destruct IH as [q Hq]. exists q. cbn [zeros_pos]. rewrite Nat2N.inj_succ, N.pow_succ_r'. lia.
  - exists 0%N. reflexivity.
Qed.

(** * Sides *)
(** A path from leaf [m] of [last + 1] leaves up to the root: at each level the sibling is on the right ([Lft]: the node is a left child), on the left,
    or there is none. *)
Inductive side : Type := Lft | Rgt.
Definition side_of (b : bool) : side := if b then Rgt else Lft.
Fixpoint sides (f m last : nat) : list side :=
  match f with
  | O => []
  | S f' => (if Nat.odd m then [Rgt] else if m <? last then [Lft] else []) ++ sides f' (m / 2) (last / 2)
  end.

Lemma sides_same f : forall m last, last < 2 ^ f -> m = last -> sides f m last = repeat Rgt (ones_count (N.of_nat m)).
Proof.
  induction f as [|f IH]; intros m last Hl ->.
  - change (2 ^ 0) with 1 in Hl. replace last with 0 by lia. reflexivity.
  - cbn [sides]. assert (Hh : last / 2 < 2 ^ f) by (apply Nat.div_lt_upper_bound; [lia|exact Hl]).
    rewrite (IH (last / 2) (last / 2) Hh eq_refl).
    rewrite Nat.ltb_irrefl. destruct (Nat.odd last) eqn:O.
    + apply Nat.odd_spec in O. destruct O as [k ->]. replace ((2 * k + 1) / 2) with k by (apply (Nat.div_unique _ 2 k 1); lia).
      replace (N.of_nat (2 * k + 1)) with (2 * N.of_nat k + 1)%N by lia. rewrite ones_count_succ_double. reflexivity.
    + assert (E : Nat.even last = true) by (rewrite <- Nat.negb_odd, O; reflexivity). apply Nat.even_spec in E. destruct E as [k ->].
      replace ((2 * k) / 2) with k by (apply (Nat.div_unique _ 2 k 0); lia).
      replace (N.of_nat (2 * k)) with (2 * N.of_nat k)%N by lia. rewrite ones_count_double. reflexivity.
Qed.

(** The library's way of writing it: the bits of the index up to where the two indices agree, then one step for each bit set above *)
Definition lib_sides (m last : N) : list side :=
  let inner := bit_len (N.lxor m last) in
  map (fun i => side_of (N.testbit m (N.of_nat i))) (seq 0 inner) ++ repeat Rgt (border_proof_size m inner).

Lemma lib_sides_same m : lib_sides m m = repeat Rgt (ones_count m).
Proof. unfold lib_sides, border_proof_size. rewrite N.lxor_nilpotent, bit_len_0, N.shiftr_0_r. reflexivity. Qed.

Lemma lib_sides_step m last : (m < last)%N -> lib_sides m last = side_of (N.odd m) :: lib_sides (N.div2 m) (N.div2 last).
Proof.
  intros Hlt. unfold lib_sides.
  assert (X : N.lxor m last <> 0%N) by (intros E; apply N.lxor_eq in E; lia).
  rewrite (bit_len_div2 _ X). rewrite !N.div2_spec, N.shiftr_lxor, <- !N.div2_spec.
  set (k := bit_len (N.lxor (N.div2 m) (N.div2 last))).
  cbn [seq map app]. rewrite N.bit0_odd. f_equal. f_equal.
  - rewrite <- seq_shift, map_map. apply map_ext. intros i. rewrite N.div2_spec, N.shiftr_spec' .
    rewrite Nat2N.inj_succ, N.add_1_r. reflexivity.
  - f_equal. unfold border_proof_size. f_equal. rewrite N.div2_spec, N.shiftr_shiftr. f_equal. lia.
Qed.

Lemma div2_nat a : N.to_nat (N.div2 a) = N.to_nat a / 2.
Proof. rewrite N.div2_div, N2Nat.inj_div. reflexivity. Qed.
Lemma odd_nat a : Nat.odd (N.to_nat a) = N.odd a.
Proof.
  destruct (N.odd a) eqn:O.
  - apply N.odd_spec in O. destruct O as [k ->]. apply Nat.odd_spec. exists (N.to_nat k). lia.
  - assert (E : N.even a = true) by (rewrite <- N.negb_odd, O; reflexivity). apply N.even_spec in E. destruct E as [k ->].
    rewrite <- Nat.negb_even. replace (N.to_nat (2 * k)) with (2 * N.to_nat k) by lia.
    rewrite (proj2 (Nat.even_spec _)); [reflexivity|exists (N.to_nat k); reflexivity].
Qed.

Lemma sides_lib f : forall m last, (m <= last)%N -> N.to_nat last < 2 ^ f -> sides f (N.to_nat m) (N.to_nat last) = lib_sides m last.
Proof.
  induction f as [|f IH]; intros m last Hm Hl.
  - change (2 ^ 0) with 1 in Hl. replace last with 0%N by lia. replace m with 0%N by lia. reflexivity.
  - destruct (N.eq_dec m last) as [->|Hne]; [rewrite lib_sides_same, (sides_same _ _ _ Hl eq_refl), N2Nat.id; reflexivity|].
    assert (Hlt : (m < last)%N) by lia. rewrite (lib_sides_step m last Hlt). cbn [sides].
    rewrite odd_nat. rewrite (proj2 (Nat.ltb_lt _ _)) by lia. rewrite <- !div2_nat.
    rewrite IH; [destruct (N.odd m); reflexivity| |].
    + rewrite !N.div2_div. apply N.div_le_mono; lia.
    + rewrite div2_nat. apply Nat.div_lt_upper_bound; [lia|exact Hl].
Qed.

Section Tree.
  Variable hash : bytes -> bytes.
  Hypothesis Hlen : forall x, length (hash x) = hash_size.
  Notation node := (hash_children hash).

  (** * Chains *)
  Fixpoint chain (ss : list side) (seed : bytes) (p : list bytes) : bytes :=
    match ss, p with
    | Lft :: ss', h :: p' => chain ss' (node seed h) p'
    | Rgt :: ss', h :: p' => chain ss' (node h seed) p'
    | _, _ => seed
    end.
  Fixpoint chain_right (ss : list side) (seed : bytes) (p : list bytes) : bytes :=
    match ss, p with
    | Lft :: ss', h :: p' => chain_right ss' seed p'
    | Rgt :: ss', h :: p' => chain_right ss' (node h seed) p'
    | _, _ => seed
    end.
  (** The strings that are hashed on the way *)
  Fixpoint chain_strings (ss : list side) (seed : bytes) (p : list bytes) : list bytes :=
    match ss, p with
    | Lft :: ss', h :: p' => (x01 :: seed ++ h) :: chain_strings ss' (node seed h) p'
    | Rgt :: ss', h :: p' => (x01 :: h ++ seed) :: chain_strings ss' (node h seed) p'
    | _, _ => []
    end.

  Lemma chain_app s1 : forall s2 seed p1 p2, length s1 = length p1 -> chain (s1 ++ s2) seed (p1 ++ p2) = chain s2 (chain s1 seed p1) p2.
  Proof.
    induction s1 as [|s s1 IH]; intros s2 seed p1 p2 L; destruct p1 as [|h p1]; try discriminate; [reflexivity|].
    cbn in L. injection L as L. destruct s; cbn [app chain]; apply IH; assumption.
  Qed.
  Lemma chain_right_app s1 : forall s2 seed p1 p2, length s1 = length p1 ->
    chain_right (s1 ++ s2) seed (p1 ++ p2) = chain_right s2 (chain_right s1 seed p1) p2.
  Proof.
    induction s1 as [|s s1 IH]; intros s2 seed p1 p2 L; destruct p1 as [|h p1]; try discriminate; [reflexivity|].
    cbn in L. injection L as L. destruct s; cbn [app chain_right]; apply IH; assumption.
  Qed.
  Lemma chain_inner_eq p : forall seed index i,
    chain_inner hash seed p index i = chain (map (fun i => side_of (N.testbit index (N.of_nat i))) (seq i (length p))) seed p.
  Proof.
    induction p as [|h p IH]; intros seed index i; [reflexivity|]. cbn [chain_inner length seq map chain].
    rewrite IH. destruct (N.testbit index (N.of_nat i)); reflexivity.
  Qed.
  Lemma chain_inner_right_eq p : forall seed index i,
    chain_inner_right hash seed p index i = chain_right (map (fun i => side_of (N.testbit index (N.of_nat i))) (seq i (length p))) seed p.
  Proof.
    induction p as [|h p IH]; intros seed index i; [reflexivity|]. cbn [chain_inner_right length seq map chain_right].
    rewrite IH. destruct (N.testbit index (N.of_nat i)); reflexivity.
  Qed.
  Lemma chain_border_eq p : forall seed, chain_border_right hash seed p = chain (repeat Rgt (length p)) seed p.
  Proof. induction p as [|h p IH]; intros seed; [reflexivity|]. cbn [length repeat chain]. rewrite <- IH. reflexivity. Qed.
  Lemma chain_border_right_eq p : forall seed, chain_border_right hash seed p = chain_right (repeat Rgt (length p)) seed p.
  Proof. induction p as [|h p IH]; intros seed; [reflexivity|]. cbn [length repeat chain_right]. rewrite <- IH. reflexivity. Qed.

  Lemma lib_sides_length m last : length (lib_sides m last) = bit_len (N.lxor m last) + border_proof_size m (bit_len (N.lxor m last)).
  Proof. unfold lib_sides. rewrite app_length, map_length, seq_length, repeat_length. reflexivity. Qed.
  Lemma lib_chain m last seed p : length p = length (lib_sides m last) ->
    let inner := bit_len (N.lxor m last) in
    chain_border_right hash (chain_inner hash seed (firstn inner p) m 0) (skipn inner p) = chain (lib_sides m last) seed p.
  Proof.
    intros L inner. rewrite lib_sides_length in L. fold inner in L.
    assert (L1 : length (firstn inner p) = inner) by (apply firstn_length_le; lia).
    rewrite chain_inner_eq, chain_border_eq, L1, skipn_length.
    rewrite <- (firstn_skipn inner p) at 4. unfold lib_sides. rewrite chain_app; [|rewrite map_length, seq_length; auto].
    fold inner. f_equal. f_equal. lia.
  Qed.
  Lemma lib_chain_right m last seed p : length p = length (lib_sides m last) ->
    let inner := bit_len (N.lxor m last) in
    chain_border_right hash (chain_inner_right hash seed (firstn inner p) m 0) (skipn inner p) = chain_right (lib_sides m last) seed p.
  Proof.
    intros L inner. rewrite lib_sides_length in L. fold inner in L.
    assert (L1 : length (firstn inner p) = inner) by (apply firstn_length_le; lia).
    rewrite chain_inner_right_eq, chain_border_right_eq, L1, skipn_length.
    rewrite <- (firstn_skipn inner p) at 4. unfold lib_sides. rewrite chain_right_app; [|rewrite map_length, seq_length; auto].
    fold inner. f_equal. f_equal. lia.
  Qed.

  (** * The tree, level by level *)
  Fixpoint pairup (l : list bytes) : list bytes :=
    match l with a :: (b :: r) => node a b :: pairup r | _ => l end.
  Fixpoint root (f : nat) (l : list bytes) : bytes := match f with O => hd [] l | S f' => root f' (pairup l) end.
  Fixpoint up (s : nat) (l : list bytes) : list bytes := match s with O => l | S s' => up s' (pairup l) end.
  Fixpoint pair_strings (l : list bytes) : list bytes :=
    match l with a :: (b :: r) => (x01 :: a ++ b) :: pair_strings r | _ => [] end.
  Fixpoint strings (f : nat) (l : list bytes) : list bytes := match f with O => [] | S f' => pair_strings l ++ strings f' (pairup l) end.
  Fixpoint path (f : nat) (l : list bytes) (m last : nat) : list bytes :=
    match f with
    | O => []
    | S f' => (if Nat.odd m then [nth (m - 1) l []] else if m <? last then [nth (m + 1) l []] else []) ++ path f' (pairup l) (m / 2) (last / 2)
    end.

  Lemma two_ind (P : list bytes -> Prop) : P [] -> (forall a, P [a]) -> (forall a b r, P r -> P (a :: b :: r)) -> forall l, P l.
  Proof.
    intros H0 H1 H2. fix IH 1. intros [|a [|b r]]; [exact H0|apply H1|apply H2, IH].
  Qed.
  Lemma pairup_length (l : list bytes) : length (pairup l) = (length l + 1) / 2.
  Proof.
    induction l as [|a|a b r IH] using two_ind; [reflexivity|reflexivity|]. cbn [pairup length]. rewrite IH.
    replace (S (S (length r)) + 1) with (length r + 1 + 1 * 2) by lia. rewrite Nat.div_add by lia. lia.
  Qed.
  Lemma pairup_last (l : list bytes) last : length l = S last -> length (pairup l) = S (last / 2).
  Proof. intros L. rewrite pairup_length, L. replace (S last + 1) with (last + 1 * 2) by lia. rewrite Nat.div_add by lia. lia. Qed.
  Lemma pairup_app (l1 : list bytes) : forall (l2 : list bytes), Nat.even (length l1) = true -> pairup (l1 ++ l2) = pairup l1 ++ pairup l2.
  Proof.
    induction l1 as [|a|a b r IH] using two_ind; intros l2 E; [reflexivity|discriminate|]. cbn [app pairup]. f_equal. apply IH, E.
  Qed.
  Lemma pairup_nth2 (l : list bytes) : forall k, 2 * k + 1 < length l -> nth k (pairup l) [] = node (nth (2 * k) l []) (nth (2 * k + 1) l []).
  Proof.
    induction l as [|a|a b r IH] using two_ind; intros k Hk; [cbn in Hk; lia|cbn in Hk; lia|]. destruct k as [|k]; [reflexivity|].
    cbn [pairup nth]. replace (2 * S k) with (S (S (2 * k))) by lia. cbn [nth Nat.add]. apply IH. cbn in Hk. lia.
  Qed.
  Lemma pairup_nth1 (l : list bytes) : forall k, 2 * k + 1 = length l -> nth k (pairup l) [] = nth (2 * k) l [].
  Proof.
    induction l as [|a|a b r IH] using two_ind; intros k Hk.
    - cbn in Hk. lia.
    - replace k with 0 by (cbn in Hk; lia). reflexivity.
    - destruct k as [|k]; [cbn in Hk; lia|].
      cbn [pairup nth]. replace (2 * S k) with (S (S (2 * k))) by lia. cbn [nth]. apply IH. cbn in Hk. lia.
  Qed.
  Lemma pair_strings_in (l : list bytes) : forall k, 2 * k + 1 < length l -> In (x01 :: nth (2 * k) l [] ++ nth (2 * k + 1) l []) (pair_strings l).
  Proof.
    induction l as [|a|a b r IH] using two_ind; intros k Hk; [cbn in Hk; lia|cbn in Hk; lia|]. destruct k as [|k]; [left; reflexivity|].
    right. replace (2 * S k) with (S (S (2 * k))) by lia. cbn [nth Nat.add]. apply IH. cbn in Hk. lia.
  Qed.
  Definition sized (l : list bytes) : Prop := forall x, In x l -> length x = hash_size.
  Lemma pairup_sized l : sized l -> sized (pairup l).
  Proof.
    induction l as [|a|a b r IH] using two_ind; intros H; [exact H|exact H|]. intros x [<-|Hx]; [apply Hlen|].
    apply IH; [|exact Hx]. intros y Hy. apply H. right. right. exact Hy.
  Qed.
  Lemma sized_nth (l : list bytes) k : sized l -> k < length l -> length (nth k l []) = hash_size.
  Proof. intros H Hk. apply H, nth_In, Hk. Qed.
  Lemma path_length f : forall l m last, length (path f l m last) = length (sides f m last).
  Proof.
    induction f as [|f IH]; intros l m last; [reflexivity|]. cbn [path sides]. rewrite !app_length, IH.
    destruct (Nat.odd m); [reflexivity|]. destruct (m <? last); reflexivity.
  Qed.
  Lemma root_single f a : root f [a] = a.
  Proof. induction f as [|f IH]; [reflexivity|exact IH]. Qed.
  Lemma up_single s a : up s [a] = [a].
  Proof. induction s as [|s IH]; [reflexivity|exact IH]. Qed.

  (** Halves of an index *)
  Lemma odd_half m : Nat.odd m = true -> exists k, m = 2 * k + 1 /\ m / 2 = k.
  Proof.
    intros O. apply Nat.odd_spec in O. destruct O as [k ->]. exists k. split; [reflexivity|]. symmetry. apply (Nat.div_unique _ 2 k 1); lia.
  Qed.
  Lemma even_half m : Nat.odd m = false -> exists k, m = 2 * k /\ m / 2 = k.
  Proof.
    intros O. assert (E : Nat.even m = true) by (rewrite <- Nat.negb_odd, O; reflexivity). apply Nat.even_spec in E. destruct E as [k ->].
    exists k. split; [reflexivity|]. symmetry. apply (Nat.div_unique _ 2 k 0); lia.
  Qed.
  Lemma half_le m last : m <= last -> m / 2 <= last / 2.
  Proof. intros H. apply Nat.div_le_mono; lia. Qed.
  Lemma half_lt f last : last < 2 ^ S f -> last / 2 < 2 ^ f.
  Proof. intros H. apply Nat.div_lt_upper_bound; [lia|exact H]. Qed.

  (** * The right path is accepted *)
  Lemma chain_complete f : forall (m last : nat) (l : list bytes), length l = S last -> m <= last -> last < 2 ^ f ->
    chain (sides f m last) (nth m l []) (path f l m last) = root f l.
  Proof.
    induction f as [|f IH]; intros m last l L Hm Hf.
    - change (2 ^ 0) with 1 in Hf. replace m with 0 by lia. destruct l as [|a [|b r]]; cbn in L; try lia. reflexivity.
    - cbn [sides path root]. specialize (IH (m / 2) (last / 2) (pairup l) (pairup_last _ _ L) (half_le _ _ Hm) (half_lt _ _ Hf)).
      destruct (Nat.odd m) eqn:O.
      + destruct (odd_half m O) as (k & -> & Hk). cbn [app chain]. rewrite <- IH. f_equal. rewrite Hk.
        rewrite pairup_nth2 by (cbn in *; lia). f_equal. f_equal. lia.
      + destruct (even_half m O) as (k & -> & Hk). destruct (2 * k <? last) eqn:E.
        * apply Nat.ltb_lt in E. cbn [app chain]. rewrite <- IH. f_equal. rewrite Hk. rewrite pairup_nth2 by lia. reflexivity.
        * apply Nat.ltb_ge in E. cbn [app]. rewrite <- IH. f_equal. rewrite Hk. rewrite pairup_nth1 by lia. reflexivity.
  Qed.

  (** * Only the right path is accepted *)
  (** Two different strings with one hash, the first hashed by the log and the second by the verifier *)
  Definition collision (A B : list bytes) : Prop := exists x y, In x A /\ In y B /\ x <> y /\ hash x = hash y.
  Lemma collision_mono A B A' B' : collision A B -> incl A A' -> incl B B' -> collision A' B'.
  Proof. intros (x & y & Hx & Hy & N & E) HA HB. exists x, y. auto. Qed.
  Lemma app_inj (a b c d : bytes) : a ++ b = c ++ d -> length a = length c -> a = c /\ b = d.
  Proof.
    revert c. induction a as [|x a IH]; intros [|y c] E L; try discriminate; [auto|]. cbn in E. injection E as -> E. injection L as L.
    destruct (IH c E L) as [-> ->]. auto.
  Qed.
  Lemma bytes_dec (x y : bytes) : {x = y} + {x <> y}.
  Proof. apply (list_eq_dec Byte.byte_eq_dec). Qed.
  Lemma node_inj (a b c d : bytes) A B : node a b = node c d -> length c = hash_size -> length d = hash_size ->
    length a = hash_size \/ length b = hash_size -> In (x01 :: c ++ d) A -> In (x01 :: a ++ b) B -> (a = c /\ b = d) \/ collision A B.
  Proof.
    intros E Lc Ld Lab HA HB. destruct (bytes_dec (x01 :: c ++ d) (x01 :: a ++ b)) as [Q|Q].
    - left. injection Q as Q. assert (T : length (c ++ d) = length (a ++ b)) by (rewrite Q; reflexivity). rewrite !app_length in T.
      destruct (app_inj a b c d) as [? ?]; [symmetry; exact Q|lia|auto].
    - right. exists (x01 :: c ++ d), (x01 :: a ++ b). repeat split; auto.
  Qed.

  Lemma chain_sound f : forall (m last : nat) (l : list bytes) (seed : bytes) (p : list bytes), length l = S last -> m <= last -> last < 2 ^ f -> sized l ->
    length p = length (sides f m last) -> length seed = hash_size \/ (exists h p', p = h :: p' /\ length h = hash_size) ->
    chain (sides f m last) seed p = root f l ->
    (seed = nth m l [] /\ p = path f l m last) \/ collision (strings f l) (chain_strings (sides f m last) seed p).
  Proof.
    induction f as [|f IH]; intros m last l seed p L Hm Hf Z Lp Q E.
    - change (2 ^ 0) with 1 in Hf. replace m with 0 by lia. destruct l as [|a [|b r]]; cbn in L; try lia.
      cbn in Lp. destruct p; [|discriminate]. left. split; [exact E|reflexivity].
    - cbn [sides path root strings] in *.
      assert (IH' := fun s p => IH (m / 2) (last / 2) (pairup l) s p (pairup_last _ _ L) (half_le _ _ Hm) (half_lt _ _ Hf) (pairup_sized _ Z)).
      clear IH. destruct (Nat.odd m) eqn:O.
      + destruct (odd_half m O) as (k & -> & Hk). cbn [app chain length chain_strings] in *.
        destruct p as [|h p]; [discriminate|]. injection Lp as Lp. cbn [chain chain_strings] in *.
        destruct (IH' (node h seed) p Lp (or_introl (Hlen _)) E) as [[E1 ->]|C].
        * rewrite Hk, pairup_nth2 in E1 by lia.
          destruct (node_inj _ _ _ _ (pair_strings l) [x01 :: h ++ seed] E1) as [[-> ->]|C].
          -- apply sized_nth; [exact Z|lia].
          -- apply sized_nth; [exact Z|lia].
          -- destruct Q as [Q|(h' & p' & Q & Q')]; [right; exact Q|]. injection Q as <- <-. left. exact Q'.
          -- apply (pair_strings_in l k); lia.
          -- left. reflexivity.
          -- left. split; [reflexivity|]. f_equal. f_equal. lia.
          -- right. apply (collision_mono _ _ _ _ C).
             ++ intros x Hx. apply in_or_app. auto.
             ++ intros x [<-|[]]. left. reflexivity.
        * right. apply (collision_mono _ _ _ _ C).
          -- intros x Hx. apply in_or_app. auto.
          -- intros x Hx. right. exact Hx.
      + destruct (even_half m O) as (k & -> & Hk). destruct (2 * k <? last) eqn:Elt.
        * apply Nat.ltb_lt in Elt. cbn [app chain length chain_strings] in *.
          destruct p as [|h p]; [discriminate|]. injection Lp as Lp. cbn [chain chain_strings] in *.
          destruct (IH' (node seed h) p Lp (or_introl (Hlen _)) E) as [[E1 ->]|C].
          -- rewrite Hk, pairup_nth2 in E1 by lia.
             destruct (node_inj _ _ _ _ (pair_strings l) [x01 :: seed ++ h] E1) as [[-> ->]|C].
             ++ apply sized_nth; [exact Z|lia].
             ++ apply sized_nth; [exact Z|lia].
             ++ destruct Q as [Q|(h' & p' & Q & Q')]; [left; exact Q|]. injection Q as <- <-. right. exact Q'.
             ++ apply (pair_strings_in l k); lia.
             ++ left. reflexivity.
             ++ left. auto.
             ++ right. apply (collision_mono _ _ _ _ C).
                ** intros x Hx. apply in_or_app. auto.
                ** intros x [<-|[]]. left. reflexivity.
          -- right. apply (collision_mono _ _ _ _ C).
             ++ intros x Hx. apply in_or_app. auto.
             ++ intros x Hx. right. exact Hx.
        * apply Nat.ltb_ge in Elt. cbn [app] in *. destruct (IH' seed p Lp Q E) as [[E1 ->]|C].
          -- left. split; [|reflexivity]. rewrite E1, Hk. apply pairup_nth1. lia.
          -- right. apply (collision_mono _ _ _ _ C).
             ++ intros x Hx. apply in_or_app. auto.
             ++ intros x Hx. exact Hx.
  Qed.

  (** * Prefixes *)
  Lemma firstn_pairup (l : list bytes) : forall k, 2 * k <= length l -> pairup (firstn (2 * k) l) = firstn k (pairup l).
  Proof.
    induction l as [|a|a b r IH] using two_ind; intros k Hk.
    - cbn in Hk. replace k with 0 by lia. reflexivity.
    - cbn in Hk. replace k with 0 by lia. reflexivity.
    - destruct k as [|k]; [reflexivity|]. replace (2 * S k) with (S (S (2 * k))) by lia. cbn [firstn pairup]. f_equal. apply IH. cbn in Hk. lia.
  Qed.
  Lemma firstn_S (k : nat) : forall (l : list bytes), k < length l -> firstn (S k) l = firstn k l ++ [nth k l []].
  Proof.
    induction k as [|k IH]; intros l Hk; (destruct l as [|a l]; [cbn in Hk; lia|]); [reflexivity|].
    cbn [firstn app nth]. f_equal. change (firstn (S k) l = firstn k l ++ [nth k l []]). apply IH. cbn in Hk. lia.
  Qed.
  Lemma chain_right_prefix f : forall (m last : nat) (l : list bytes) (s : bytes), length l = S last -> m <= last -> last < 2 ^ f ->
    chain_right (sides f m last) s (path f l m last) = root f (firstn m l ++ [s]).
  Proof.
    induction f as [|f IH]; intros m last l s L Hm Hf.
    - change (2 ^ 0) with 1 in Hf. replace m with 0 by lia. reflexivity.
    - cbn [sides path root]. assert (IH' := fun s => IH (m / 2) (last / 2) (pairup l) s (pairup_last _ _ L) (half_le _ _ Hm) (half_lt _ _ Hf)).
      destruct (Nat.odd m) eqn:O.
      + destruct (odd_half m O) as (k & -> & Hk). cbn [app chain_right]. rewrite IH'. f_equal. rewrite Hk.
        replace (2 * k + 1) with (S (2 * k)) by lia. rewrite firstn_S by lia. rewrite <- app_assoc. rewrite pairup_app.
        * rewrite firstn_pairup by lia. cbn [app pairup]. replace (S (2 * k) - 1) with (2 * k) by lia. reflexivity.
        * rewrite firstn_length_le by lia. apply Nat.even_spec. exists k. reflexivity.
      + destruct (even_half m O) as (k & -> & Hk).
        assert (P : pairup (firstn (2 * k) l ++ [s]) = firstn k (pairup l) ++ [s]).
        { rewrite pairup_app; [rewrite firstn_pairup by lia; reflexivity|]. rewrite firstn_length_le by lia. apply Nat.even_spec. exists k. reflexivity. }
        rewrite P. rewrite Hk in *. destruct (2 * k <? last); cbn [app chain_right]; apply IH'.
  Qed.

  Lemma up_last s : forall (l : list bytes) last, length l = S last -> length (up s l) = S (last / 2 ^ s).
  Proof.
    induction s as [|s IH]; intros l last L; [rewrite Nat.pow_0_r, Nat.div_1_r; exact L|].
    cbn [up]. rewrite (IH _ _ (pairup_last _ _ L)). rewrite Nat.div_div by (try apply Nat.pow_nonzero; lia). reflexivity.
  Qed.
  Lemma up_sized s : forall l, sized l -> sized (up s l).
  Proof. induction s as [|s IH]; intros l Z; [exact Z|]. apply IH, pairup_sized, Z. Qed.
  Lemma up_firstn s : forall (l : list bytes) q, q * 2 ^ s <= length l -> up s (firstn (q * 2 ^ s) l) = firstn q (up s l).
  Proof.
    induction s as [|s IH]; intros l q Hq; [rewrite Nat.pow_0_r, Nat.mul_1_r; reflexivity|].
    cbn [up]. cbn [Nat.pow] in *. replace (q * (2 * 2 ^ s)) with (2 * (q * 2 ^ s)) in * by lia. rewrite firstn_pairup by lia. apply IH.
    rewrite pairup_length. apply Nat.div_le_lower_bound; lia.
  Qed.
  Lemma root_up s : forall f l, root (s + f) l = root f (up s l).
  Proof. induction s as [|s IH]; intros f l; [reflexivity|]. cbn [Nat.add root up]. apply IH. Qed.
  Lemma strings_up s : forall f l, incl (strings f (up s l)) (strings (s + f) l).
  Proof.
    induction s as [|s IH]; intros f l; [apply incl_refl|]. cbn [Nat.add strings up]. eapply incl_tran; [apply IH|]. apply incl_appr, incl_refl.
  Qed.
  Lemma root_fuel f : forall (l : list bytes) g, length l <= 2 ^ f -> f <= g -> root g l = root f l.
  Proof.
    induction f as [|f IH]; intros l g Hl Hg.
    - change (2 ^ 0) with 1 in Hl. destruct l as [|a [|b r]]; [|apply root_single|cbn in Hl; lia].
      induction g as [|g IHg]; [reflexivity|]. cbn [root pairup]. apply IHg. lia.
    - destruct g as [|g]; [lia|]. cbn [root]. apply IH; [|lia]. rewrite pairup_length.
      cbn [Nat.pow] in Hl. assert ((length l + 1) / 2 < S (2 ^ f)); [apply Nat.div_lt_upper_bound; lia|lia].
  Qed.

  (** * The tree of RFC 6962 *)
  Lemma root_split f : forall (l1 l2 : list bytes), length l1 = 2 ^ f -> 0 < length l2 <= 2 ^ f -> root (S f) (l1 ++ l2) = node (root f l1) (root f l2).
  Proof.
    induction f as [|f IH]; intros l1 l2 L1 L2.
    - change (2 ^ 0) with 1 in *. destruct l1 as [|a [|? ?]]; cbn in L1; try lia. destruct l2 as [|b [|? ?]]; cbn in L2; try lia. reflexivity.
    - cbn [Nat.pow] in *. assert (Ev : Nat.even (length l1) = true) by (rewrite L1; apply Nat.even_spec; exists (2 ^ f); lia).
      change (root (S (S f)) (l1 ++ l2)) with (root (S f) (pairup (l1 ++ l2))). rewrite pairup_app by exact Ev. rewrite IH; [reflexivity| |].
      + rewrite pairup_length, L1. symmetry. apply (Nat.div_unique _ 2 _ 1); lia.
      + rewrite pairup_length. split.
        * apply Nat.div_str_pos. lia.
        * assert ((length l2 + 1) / 2 < S (2 ^ f)); [apply Nat.div_lt_upper_bound; lia|lia].
  Qed.
  Lemma tree_hash_root fuel : forall (l : list bytes) f, length l <= fuel -> 0 < length l <= 2 ^ f -> tree_hash hash fuel l = root f l.
  Proof.
    induction fuel as [|fuel IH]; intros l f Hl Hf; [lia|]. destruct l as [|a [|b r]]; [cbn in Hf; lia|symmetry; apply root_single|].
    cbn [tree_hash]. set (l := a :: b :: r) in *. assert (L2 : 2 <= length l) by (cbn; lia).
    set (g := Nat.log2 (length l - 1)). assert (G := Nat.log2_spec (length l - 1)). fold g in G.
    destruct G as [G1 G2]; [lia|]. cbn [Nat.pow] in G2.
    assert (P : 0 < 2 ^ g) by (apply Nat.neq_0_lt_0, Nat.pow_nonzero; lia).
    assert (L1 : length (firstn (2 ^ g) l) = 2 ^ g) by (apply firstn_length_le; lia).
    assert (L3 : length (skipn (2 ^ g) l) = length l - 2 ^ g) by apply skipn_length.
    rewrite (IH (firstn (2 ^ g) l) g) by lia. rewrite (IH (skipn (2 ^ g) l) g) by lia.
    rewrite <- root_split by lia. rewrite firstn_skipn.
    destruct (Nat.le_gt_cases (S g) f) as [Hgf|Hgf]; [symmetry; apply root_fuel; [cbn [Nat.pow]; lia|exact Hgf]|].
    apply root_fuel; lia.
  Qed.

  Lemma leaf_sized leaves : sized (map (hash_leaf hash) leaves).
  Proof. intros x Hx. apply in_map_iff in Hx. destruct Hx as (y & <- & _). apply Hlen. Qed.

  (** Equal roots, equal numbers of leaves: equal leaves *)
  Lemma pairup_inj (l1 : list bytes) : forall l2 : list bytes, length l1 = length l2 -> sized l1 -> sized l2 -> pairup l1 = pairup l2 ->
    l1 = l2 \/ collision (pair_strings l1) (pair_strings l2).
  Proof.
    induction l1 as [|a|a b r IH] using two_ind; intros l2 L Z1 Z2 E.
    - destruct l2; [auto|discriminate].
    - destruct l2 as [|c [|? ?]]; try discriminate. auto.
    - destruct l2 as [|c [|d q]]; try discriminate. cbn [pairup] in E. inversion E as [[E1 E2]].
      destruct (IH q) as [->|C].
      + cbn in L. lia.
      + intros x Hx. apply Z1. right. right. exact Hx.
      + intros x Hx. apply Z2. right. right. exact Hx.
      + exact E2.
      + destruct (bytes_dec (x01 :: a ++ b) (x01 :: c ++ d)) as [Q|Q].
        * injection Q as Q. left. destruct (app_inj a b c d Q) as [-> ->]; [|reflexivity]. rewrite Z1, Z2 by (left; reflexivity). reflexivity.
        * right. exists (x01 :: a ++ b), (x01 :: c ++ d). cbn [pair_strings]. repeat split; auto; left; reflexivity.
      + right. apply (collision_mono _ _ _ _ C); intros x Hx; right; exact Hx.
  Qed.
  Lemma root_inj f : forall (l1 l2 : list bytes), length l1 = length l2 -> length l1 <= 2 ^ f -> sized l1 -> sized l2 -> root f l1 = root f l2 ->
    l1 = l2 \/ collision (strings f l1) (strings f l2).
  Proof.
    induction f as [|f IH]; intros l1 l2 L Hf Z1 Z2 E.
    - change (2 ^ 0) with 1 in Hf. destruct l1 as [|a [|? ?]], l2 as [|c [|? ?]]; cbn in L, Hf; try lia; [auto|]. cbn in E. subst. auto.
    - cbn [root strings] in *. destruct (IH (pairup l1) (pairup l2)) as [Q|C].
      + rewrite !pairup_length, L. reflexivity.
      + rewrite pairup_length. cbn [Nat.pow] in Hf. assert ((length l1 + 1) / 2 < S (2 ^ f)); [apply Nat.div_lt_upper_bound; lia|lia].
      + apply pairup_sized, Z1.
      + apply pairup_sized, Z2.
      + exact E.
      + destruct (pairup_inj l1 l2 L Z1 Z2 Q) as [->|C]; [auto|]. right.
        apply (collision_mono _ _ _ _ C); intros x Hx; apply in_or_app; auto.
      + right. apply (collision_mono _ _ _ _ C); intros x Hx; apply in_or_app; auto.
  Qed.
End Tree.
