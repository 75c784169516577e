(** A concrete use of the trie for the examples beside the theorems: a hash function that numbers the strings of a list,
    for which freedom from collisions on that list is a fact. *)
From Verif Require Import Base TrieModel TrieSpec BaseLemmas TrieMaps.

Fixpoint index_of (x : bytes) (l : list bytes) : nat :=
  match l with
  | [] => 0
  | y :: l' => if beqb y x then 0 else S (index_of x l')
  end.
Definition number (i : nat) : bytes := x01 :: byte_of_nat (i / 256) :: byte_of_nat (i mod 256) :: repeat x07 29.

Lemma index_of_nth x l : In x l -> nth (index_of x l) l [] = x /\ index_of x l < length l.
Proof.
  induction l as [|y l IH]; [intros []|]. cbn [index_of In length]. destruct (beqb_spec y x) as [->|Hne].
  - intros _. split; [reflexivity | lia].
  - intros [Hq|Hi]; [contradiction|]. destruct (IH Hi) as [Hn Hl]. split; [exact Hn | lia].
Qed.
Lemma byte_of_nat_inj a b : a < 256 -> b < 256 -> byte_of_nat a = byte_of_nat b -> a = b.
Proof.
  intros Ha Hb. unfold byte_of_nat. rewrite !N.mod_small by lia.
  destruct (Byte.of_N (N.of_nat a)) as [x|] eqn:Hx; [|apply Byte.of_N_None_iff in Hx; lia].
  destruct (Byte.of_N (N.of_nat b)) as [y|] eqn:Hy; [|apply Byte.of_N_None_iff in Hy; lia].
  intros ->. apply Byte.to_of_N in Hx, Hy. rewrite Hx in Hy. lia.
Qed.
Lemma number_inj i j : i < 4096 -> j < 4096 -> number i = number j -> i = j.
Proof.
  intros Hi Hj Hq.
  assert (H1 := f_equal (fun l => nth 1 l x00) Hq). assert (H2 := f_equal (fun l => nth 2 l x00) Hq).
  unfold number in H1, H2. cbn [nth] in H1, H2.
  assert (D : forall n, n < 4096 -> n / 256 < 256) by (intros n Hn; apply Nat.div_lt_upper_bound; lia).
  assert (M : forall n, n mod 256 < 256) by (intros n; apply Nat.mod_upper_bound; lia).
  apply byte_of_nat_inj in H1; [|auto|auto]. apply byte_of_nat_inj in H2; [|auto|auto].
  rewrite (Nat.div_mod i 256), (Nat.div_mod j 256) by lia. rewrite H1, H2. reflexivity.
Qed.

Definition table_hash (l : list bytes) (x : bytes) : bytes := number (index_of x l).
Lemma table_hash_length l x : length (table_hash l x) = HashLength.
Proof. reflexivity. Qed.
Lemma table_hash_cf l : length l < 4096 -> collision_free (table_hash l) (fun x => In x l).
Proof.
  intros Hl. split.
  - intros x y Hx Hy Hq. destruct (index_of_nth x l Hx) as [Nx Lx], (index_of_nth y l Hy) as [Ny Ly].
    apply number_inj in Hq; [|lia|lia]. congruence.
  - intros x y _ _ Hq. discriminate.
Qed.
Lemma table_hash_nz l x : table_hash l x <> zero_hash.
Proof. discriminate. Qed.

(** Two keys, two values; the second batch deletes the first key and overwrites the second. *)
Definition kA : bytes := x10 :: repeat x00 31.
Definition kB : bytes := x90 :: repeat x00 31.
Definition kC : bytes := x91 :: repeat x00 31.
Definition v1 : bytes := repeat x05 32.
Definition v2 : bytes := repeat x06 32.
Definition ex_b1 : kvmap := [(kA, v1); (kB, v2)].
Definition ex_m1 : kvmap := [(kA, v1); (kB, v2)].
Definition ex_b2 : kvmap := [(kA, DefaultLeaf); (kB, v1)].
Definition ex_m2 : kvmap := [(kB, v1)].
Definition ex_ops : list op :=
  [OpUpdate false ex_b1; OpCommit; OpReopen; OpUpdate true ex_b2; OpReset; OpCommit].

Definition leaf_strings (kvs : kvmap) : list bytes :=
  flat_map (fun kv => map (leaf_string (fst kv) (snd kv)) (seq 1 256)) kvs.
Definition ex_leaves : list bytes := leaf_strings [(kA, v1); (kB, v2); (kB, v1)].
Definition ex_inner : bytes :=
  number (index_of (leaf_string kA v1 255) ex_leaves) ++ number (index_of (leaf_string kB v2 255) ex_leaves).
Definition ex_table : list bytes := ex_leaves ++ [ex_inner].
Definition exH : bytes -> bytes := table_hash ex_table.
Definition exG (x : bytes) : Prop := In x ex_table.

Lemma ex_table_length : length ex_table < 4096.
Proof.
  unfold ex_table, ex_leaves, leaf_strings. cbn [flat_map]. rewrite !app_length, !map_length, !seq_length.
  apply Nat.ltb_lt. vm_compute. reflexivity.
Qed.
Lemma exH_cf : collision_free exH exG.
Proof. apply table_hash_cf. exact ex_table_length. Qed.

Lemma ex_leaf_in k v h : In (k, v) [(kA, v1); (kB, v2); (kB, v1)] -> 1 <= h <= TrieHeight -> exG (leaf_string k v h).
Proof.
  intros Hi Hh. unfold exG, ex_table. apply in_app_iff. left. unfold ex_leaves, leaf_strings. apply in_flat_map.
  exists (k, v). split; [exact Hi|]. apply in_map_iff. exists h. split; [reflexivity|]. apply in_seq.
  rewrite TH in Hh. lia.
Qed.
Lemma ex_in_b l : forallb (fun s => existsb (beqb s) ex_table) l = true -> forall s, In s l -> exG s.
Proof.
  intros Hf s Hs. rewrite forallb_forall in Hf. apply Hf in Hs. apply existsb_exists in Hs as (x & Hx & He).
  apply beqb_eq in He. subst. exact Hx.
Qed.
Lemma ex_covers1 : covers exH exG ex_m1.
Proof.
  split.
  - apply ex_in_b. vm_compute. reflexivity.
  - intros k v h Hi. apply ex_leaf_in. destruct Hi as [<-|[<-|[]]]; simpl; auto.
Qed.
Lemma ex_covers2 : covers exH exG ex_m2.
Proof.
  split.
  - apply ex_in_b. vm_compute. reflexivity.
  - intros k v h Hi. apply ex_leaf_in. destruct Hi as [<-|[]]; simpl; auto.
Qed.

Lemma sep_bit a b : bit a 0 <> bit b 0 -> forall x y, In x [a; b] -> In y [a; b] -> agree (TrieHeight - 1) x y -> x = y.
Proof.
  intros Hd x y Hx Hy Ha. specialize (Ha 0 ltac:(rewrite TH; lia)).
  destruct Hx as [<-|[<-|[]]]; destruct Hy as [<-|[<-|[]]]; congruence.
Qed.

Lemma ex_map1 : is_map ex_m1.
Proof.
  split; [|repeat constructor]. simpl. constructor; [simpl; intros [Hq|[]]; discriminate | repeat constructor; simpl; tauto].
Qed.
Lemma ex_map2 : is_map ex_m2.
Proof. split; repeat constructor; simpl; tauto. Qed.
Lemma ex_batch1 : is_batch ex_b1.
Proof. split; [split; [reflexivity | split; exact I]|]. repeat constructor. Qed.
Lemma ex_batch2 : is_batch ex_b2.
Proof.
  split; [split; [reflexivity | split; exact I]|]. constructor; [split; [reflexivity | right; reflexivity]|].
  constructor; [split; [reflexivity | left; reflexivity]|]. constructor.
Qed.
Lemma ex_sep1 : sep (keys ex_m1).
Proof. exact (sep_bit kA kB ltac:(discriminate)). Qed.
Lemma ex_sep2 : sep (keys ex_m2).
Proof. intros x y Hx Hy _. destruct Hx as [<-|[]], Hy as [<-|[]]. reflexivity. Qed.

Lemma ex_history : history exH exG 0 [] ex_ops ex_m2.
Proof.
  unfold ex_ops. apply (h_update exH exG 0 [] false ex_b1 ex_m1).
  - exact ex_batch1.
  - intros k v [Hq|[Hq|[]]]; injection Hq as <- <-; split; discriminate.
  - intros (n & d & k1 & k2 & _ & [] & _).
  - exact ex_sep1.
  - exact ex_map1.
  - apply (over_overridden [] ex_b1). apply (proj1 ex_map1).
  - exact ex_covers1.
  - apply h_commit; [lia|]. apply h_reopen.
    apply (h_update exH exG 0 ex_m1 true ex_b2 ex_m2).
    + exact ex_batch2.
    + intros k v [Hq|[Hq|[]]]; injection Hq as <- <-; split; intros Hv.
      * contradiction.
      * simpl. auto.
      * vm_compute. discriminate.
      * discriminate Hv.
    + intros (n & d & k1 & k2 & Hd & _ & H1 & H2 & L1 & L2 & _).
      assert (Hdd : d = kA) by (destruct Hd as [Hd|[Hd|[]]]; [congruence | discriminate]). subst d.
      destruct H1 as [<-|[<-|[]]]; vm_compute in L1; discriminate.
    + intros x y Hx Hy. apply (sep_bit kA kB ltac:(discriminate)); simpl in *; tauto.
    + exact ex_map2.
    + apply (over_overridden ex_m1 ex_b2). apply (proj1 ex_map1).
    + exact ex_covers2.
    + apply h_reset. apply h_commit; [lia|]. apply h_nil.
Qed.
