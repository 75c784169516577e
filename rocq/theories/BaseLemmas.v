(** Lemmas about byte strings, comparison and bits. *)
From Coq Require Import Permutation Sorting.Sorted.
From Verif Require Import Base TrieModel TrieSpec.

(** ** beqb *)
Lemma byte_eqb_eq (x y : byte) : Byte.eqb x y = true <-> x = y.
Proof. split; [apply Byte.byte_dec_bl | apply Byte.byte_dec_lb]. Qed.

Lemma beqb_eq (a b : bytes) : beqb a b = true <-> a = b.
Proof.
  revert b. induction a as [|x a IH]; intros [|y b]; simpl; split; intros Hq; try discriminate; auto.
  - apply andb_true_iff in Hq as [H1 H2]. apply byte_eqb_eq in H1. apply IH in H2. congruence.
  - injection Hq as -> ->. apply andb_true_iff. split; [apply byte_eqb_eq | apply IH]; reflexivity.
Qed.

Lemma beqb_refl (a : bytes) : beqb a a = true.
Proof. apply beqb_eq. reflexivity. Qed.

Lemma beqb_neq (a b : bytes) : beqb a b = false <-> a <> b.
Proof.
  destruct (beqb a b) eqn:Hq; split; intros H; try discriminate; auto.
  - apply beqb_eq in Hq. contradiction.
  - intros ->. rewrite beqb_refl in Hq. discriminate.
Qed.

Lemma beqb_spec (a b : bytes) : reflect (a = b) (beqb a b).
Proof. destruct (beqb a b) eqn:Hq; constructor; [apply beqb_eq | apply beqb_neq]; exact Hq. Qed.

Lemma beqb_sym (a b : bytes) : beqb a b = beqb b a.
Proof. destruct (beqb_spec a b), (beqb_spec b a); congruence. Qed.

(** ** bcmp *)
Lemma to_N_inj (x y : byte) : Byte.to_N x = Byte.to_N y -> x = y.
Proof.
  intros Hq. pose proof (Byte.of_to_N x) as Hx. pose proof (Byte.of_to_N y) as Hy.
  rewrite Hq in Hx. congruence.
Qed.

Lemma bcmp_eq (a b : bytes) : bcmp a b = Eq <-> a = b.
Proof.
  revert b. induction a as [|x a IH]; intros [|y b]; simpl; split; intros Hq; try discriminate; auto.
  - destruct (N.compare_spec (Byte.to_N x) (Byte.to_N y)) as [He|He|He]; try discriminate.
    apply to_N_inj in He. apply IH in Hq. congruence.
  - injection Hq as -> ->. rewrite N.compare_refl. apply IH. reflexivity.
Qed.

Lemma bcmp_refl (a : bytes) : bcmp a a = Eq.
Proof. apply bcmp_eq. reflexivity. Qed.

Lemma bcmp_antisym (a b : bytes) : bcmp b a = CompOpp (bcmp a b).
Proof.
  revert b. induction a as [|x a IH]; intros [|y b]; simpl; auto.
  rewrite (N.compare_antisym (Byte.to_N x) (Byte.to_N y)).
  destruct (N.compare (Byte.to_N x) (Byte.to_N y)); simpl; auto.
Qed.

Lemma bcmp_gt (a b : bytes) : bcmp a b = Gt <-> bcmp b a = Lt.
Proof. rewrite (bcmp_antisym a b). destruct (bcmp a b); simpl; split; congruence. Qed.

Lemma bcmp_trans (a b c : bytes) : bcmp a b = Lt -> bcmp b c = Lt -> bcmp a c = Lt.
Proof.
  revert b c. induction a as [|x a IH]; intros [|y b] [|z c]; simpl; try congruence.
  destruct (N.compare_spec (Byte.to_N x) (Byte.to_N y)) as [H1|H1|H1];
  destruct (N.compare_spec (Byte.to_N y) (Byte.to_N z)) as [H2|H2|H2]; try congruence;
  destruct (N.compare_spec (Byte.to_N x) (Byte.to_N z)) as [H3|H3|H3]; try lia; eauto; congruence.
Qed.

Lemma bcmp_lt_irrefl (a : bytes) : bcmp a a <> Lt.
Proof. rewrite bcmp_refl. discriminate. Qed.

(** ** All bytes *)
Definition all_bytes : list byte :=
  map (fun n => match Byte.of_N (N.of_nat n) with Some b => b | None => x00 end) (seq 0 256).

Lemma all_bytes_complete (b : byte) : In b all_bytes.
Proof.
  unfold all_bytes. apply in_map_iff. exists (N.to_nat (Byte.to_N b)). split.
  - rewrite N2Nat.id, Byte.of_to_N. reflexivity.
  - apply in_seq. pose proof (Byte.to_N_bounded b). lia.
Qed.

Lemma byte_sweep (P : byte -> bool) : forallb P all_bytes = true -> forall b, P b = true.
Proof. intros Hf b. eapply forallb_forall in Hf; [exact Hf | apply all_bytes_complete]. Qed.

(** ** Bits of bytes *)
(** First position where two bytes differ, most significant bit first. *)
Fixpoint first_diff (fuel i : nat) (x y : byte) : option nat :=
  match fuel with
  | O => None
  | S f => if Bool.eqb (byte_bit x i) (byte_bit y i) then first_diff f (S i) x y else Some i
  end.

Definition diff_ok (x y : byte) : bool :=
  match first_diff 8 0 x y, N.compare (Byte.to_N x) (Byte.to_N y) with
  | None, Eq => true
  | Some i, Lt => negb (byte_bit x i) && byte_bit y i
  | Some i, Gt => byte_bit x i && negb (byte_bit y i)
  | _, _ => false
  end.

Lemma diff_ok_all : forall x y, diff_ok x y = true.
Proof.
  intros x. apply byte_sweep. revert x. apply byte_sweep. vm_compute. reflexivity.
Qed.

Lemma first_diff_some fuel i x y n :
  first_diff fuel i x y = Some n ->
  i <= n < i + fuel /\ (forall j, i <= j < n -> byte_bit x j = byte_bit y j) /\
  byte_bit x n <> byte_bit y n.
Proof.
  revert i. induction fuel as [|f IH]; intros i; simpl; [discriminate|].
  destruct (Bool.eqb (byte_bit x i) (byte_bit y i)) eqn:He; intros Hq.
  - apply IH in Hq as (Ha & Hb & Hc). repeat split; try lia; auto.
    intros j Hj. destruct (Nat.eq_dec j i) as [->|Hne]; [apply Bool.eqb_prop; exact He|].
    apply Hb. lia.
  - injection Hq as <-. repeat split; try lia.
    intros Hq. rewrite Hq, Bool.eqb_reflx in He. discriminate.
Qed.

Lemma first_diff_none fuel i x y :
  first_diff fuel i x y = None -> forall j, i <= j < i + fuel -> byte_bit x j = byte_bit y j.
Proof.
  revert i. induction fuel as [|f IH]; intros i; simpl; intros Hq j Hj; [lia|].
  destruct (Bool.eqb (byte_bit x i) (byte_bit y i)) eqn:He; [|discriminate].
  destruct (Nat.eq_dec j i) as [->|Hne]; [apply Bool.eqb_prop; exact He|].
  apply (IH (S i)); [exact Hq|lia].
Qed.

Lemma byte_bits_inj (x y : byte) : (forall j, j < 8 -> byte_bit x j = byte_bit y j) -> x = y.
Proof.
  intros Hj. pose proof (diff_ok_all x y) as Hd. unfold diff_ok in Hd.
  destruct (first_diff 8 0 x y) as [n|] eqn:Hf.
  - apply first_diff_some in Hf as (Ha & _ & Hc). exfalso. apply Hc, Hj. lia.
  - destruct (N.compare_spec (Byte.to_N x) (Byte.to_N y)); try discriminate. apply to_N_inj. assumption.
Qed.

Lemma byte_lt_bit (x y : byte) :
  N.compare (Byte.to_N x) (Byte.to_N y) = Lt <->
  exists n, n < 8 /\ (forall j, j < n -> byte_bit x j = byte_bit y j) /\
            byte_bit x n = false /\ byte_bit y n = true.
Proof.
  pose proof (diff_ok_all x y) as Hd. unfold diff_ok in Hd.
  destruct (first_diff 8 0 x y) as [n|] eqn:Hf.
  - apply first_diff_some in Hf as (Ha & Hb & Hc). split.
    + intros Hlt. rewrite Hlt in Hd. apply andb_true_iff in Hd as [H1 H2].
      apply negb_true_iff in H1. exists n. repeat split; auto; try lia. intros j Hj. apply Hb. lia.
    + intros (n' & Hn' & Hp & Hx & Hy).
      destruct (N.compare_spec (Byte.to_N x) (Byte.to_N y)) as [He|He|He]; auto; [discriminate|].
      apply andb_true_iff in Hd as [H1 H2]. apply negb_true_iff in H2.
      destruct (lt_eq_lt_dec n n') as [[Hl|He']|Hl].
      * rewrite Hp in H1 by exact Hl. congruence.
      * subst. congruence.
      * rewrite Hb in Hx by lia. congruence.
  - destruct (N.compare (Byte.to_N x) (Byte.to_N y)); try discriminate. split; [discriminate|].
    intros (n & Hn & _ & Hx & Hy). pose proof (first_diff_none _ _ _ _ Hf n ltac:(lia)). congruence.
Qed.

(** ** Bits of byte strings *)

Lemma div8_cons i : 8 <= i -> i / 8 = S ((i - 8) / 8) /\ i mod 8 = (i - 8) mod 8.
Proof.
  intros Hi. replace i with ((i - 8) + 1 * 8) at 1 3 by lia.
  rewrite Nat.div_add, Nat.mod_add by lia. split; lia.
Qed.

Lemma bit_cons_lo x a i : i < 8 -> bit (x :: a) i = byte_bit x i.
Proof.
  intros Hi. unfold bit, bit_is_set. rewrite Nat.div_small, Nat.mod_small by exact Hi. reflexivity.
Qed.

Lemma bit_cons_hi x a i : 8 <= i -> bit (x :: a) i = bit a (i - 8).
Proof.
  intros Hi. unfold bit, bit_is_set. destruct (div8_cons i Hi) as [-> ->]. reflexivity.
Qed.

Lemma agree_refl n a : agree n a a.
Proof. intros i _. reflexivity. Qed.
Lemma agree_sym n a b : agree n a b -> agree n b a.
Proof. intros Ha i Hi. symmetry. apply Ha, Hi. Qed.
Lemma agree_trans n a b c : agree n a b -> agree n b c -> agree n a c.
Proof. intros Ha Hb i Hi. rewrite Ha, Hb by exact Hi. reflexivity. Qed.
Lemma agree_le n n' a b : n' <= n -> agree n a b -> agree n' a b.
Proof. intros Hn Ha i Hi. apply Ha. lia. Qed.
Lemma agree_S n a b : agree (S n) a b <-> agree n a b /\ bit a n = bit b n.
Proof.
  split.
  - intros Ha. split; [eapply agree_le; [|exact Ha]; lia | apply Ha; lia].
  - intros [Ha Hb] i Hi. destruct (Nat.eq_dec i n) as [->|Hne]; [exact Hb | apply Ha; lia].
Qed.

Lemma agree_cons n x y a b :
  agree (8 + n) (x :: a) (y :: b) -> x = y /\ agree n a b.
Proof.
  intros Ha. split.
  - apply byte_bits_inj. intros j Hj. specialize (Ha j ltac:(lia)).
    rewrite !bit_cons_lo in Ha by exact Hj. exact Ha.
  - intros i Hi. specialize (Ha (8 + i) ltac:(lia)). rewrite !bit_cons_hi in Ha by lia.
    replace (8 + i - 8) with i in Ha by lia. exact Ha.
Qed.

Lemma agree_eq (a b : bytes) : length a = length b -> agree (8 * length a) a b -> a = b.
Proof.
  revert b. induction a as [|x a IH]; intros [|y b]; simpl length; intros Hl Ha; try discriminate; auto.
  replace (8 * S (length a)) with (8 + 8 * length a) in Ha by lia.
  apply agree_cons in Ha as [-> Ha]. f_equal. apply IH; [lia | exact Ha].
Qed.

Lemma agree_256 (a b : bytes) :
  length a = HashLength -> length b = HashLength -> agree TrieHeight a b -> a = b.
Proof.
  intros Ha Hb Hag. apply agree_eq; [congruence|].
  eapply agree_le; [|exact Hag]. rewrite Ha. unfold HashLength, TrieHeight. lia.
Qed.

(** Byte-wise order is the order of the first differing bit. *)
Lemma bcmp_lt_bits (a b : bytes) : length a = length b ->
  (bcmp a b = Lt <-> exists n, n < 8 * length a /\ agree n a b /\ bit a n = false /\ bit b n = true).
Proof.
  revert b. induction a as [|x a IH]; intros [|y b] Hl; simpl length in *; try discriminate.
  - simpl. split; [discriminate|]. intros (n & Hn & _). lia.
  - specialize (IH b ltac:(lia)). cbn [bcmp]. split.
    + destruct (N.compare (Byte.to_N x) (Byte.to_N y)) eqn:Hc; intros Hq; try discriminate.
      * apply N.compare_eq in Hc. apply to_N_inj in Hc. subst y.
        apply IH in Hq as (n & Hn & Hag & H0 & H1).
        exists (8 + n). rewrite !bit_cons_hi by lia. replace (8 + n - 8) with n by lia.
        repeat split; auto; try lia. intros i Hi.
        destruct (le_lt_dec 8 i) as [Hge|Hlt].
        -- rewrite !bit_cons_hi by exact Hge. apply Hag. lia.
        -- rewrite !bit_cons_lo by exact Hlt. reflexivity.
      * apply byte_lt_bit in Hc as (n & Hn & Hag & H0 & H1).
        exists n. rewrite !bit_cons_lo by exact Hn. repeat split; auto; try lia.
        intros i Hi. rewrite !bit_cons_lo by lia. apply Hag. exact Hi.
    + intros (n & Hn & Hag & H0 & H1). destruct (le_lt_dec 8 n) as [Hge|Hlt].
      * replace n with (8 + (n - 8)) in Hag by lia. apply agree_cons in Hag as [-> Hag].
        rewrite N.compare_refl. apply IH. exists (n - 8). rewrite !bit_cons_hi in * by lia.
        repeat split; auto; lia.
      * rewrite !bit_cons_lo in * by exact Hlt.
        assert (Hc : N.compare (Byte.to_N x) (Byte.to_N y) = Lt).
        { apply byte_lt_bit. exists n. repeat split; auto. intros j Hj.
          specialize (Hag j Hj). rewrite !bit_cons_lo in Hag by lia. exact Hag. }
        rewrite Hc. reflexivity.
Qed.

Lemma bit_lt_mono (a b : bytes) n : length a = length b ->
  bcmp a b = Lt -> agree n a b -> bit a n = true -> bit b n = true.
Proof.
  intros Hl Hlt Hag Ha. apply bcmp_lt_bits in Hlt as (n' & Hn' & Hag' & H0 & H1); [|exact Hl].
  destruct (lt_eq_lt_dec n n') as [[Hc|Hc]|Hc].
  - rewrite <- Hag' by exact Hc. exact Ha.
  - subst. exact H1.
  - specialize (Hag n' Hc). congruence.
Qed.

Lemma bit_is_set_some k i : i < 8 * length k -> bit_is_set k i = Some (bit k i).
Proof.
  intros Hi. unfold bit, bit_is_set. destruct (nth_error k (i / 8)) eqn:Hq; [reflexivity|].
  apply nth_error_None in Hq. assert (i / 8 < length k) by (apply Nat.div_lt_upper_bound; lia). lia.
Qed.

Lemma bit_is_set_none k i : 8 * length k <= i -> bit_is_set k i = None.
Proof.
  intros Hi. unfold bit_is_set. destruct (nth_error k (i / 8)) eqn:Hq; [|reflexivity].
  assert (i / 8 < length k) by (apply nth_error_Some; congruence).
  assert (length k <= i / 8) by (apply Nat.div_le_lower_bound; lia). lia.
Qed.

(** ** set_nth *)
Lemma set_nth_length {A} i (x : A) l : length (set_nth i x l) = length l.
Proof. revert i. induction l as [|y l IH]; intros [|i]; simpl; auto. Qed.

Lemma nth_set_nth {A} i j (x d : A) l :
  nth j (set_nth i x l) d = if Nat.eqb j i && Nat.ltb i (length l) then x else nth j l d.
Proof.
  revert i j. induction l as [|y l IH]; intros [|i] [|j]; simpl; auto.
  - destruct (Nat.eqb j i); reflexivity.
  - rewrite IH. replace (S i <? S (length l)) with (i <? length l) by reflexivity. reflexivity.
Qed.

(** ** firstn helpers *)
Lemma firstn_app_exact {A} (a b : list A) n : length a = n -> firstn n (a ++ b) = a.
Proof. intros <-. rewrite firstn_app, firstn_all, Nat.sub_diag. simpl. apply app_nil_r. Qed.
Lemma skipn_app_exact {A} (a b : list A) n : length a = n -> skipn n (a ++ b) = b.
Proof. intros <-. rewrite skipn_app, skipn_all, Nat.sub_diag. reflexivity. Qed.

(** Keep [simpl] from unfolding the large constants. *)
Global Arguments TrieHeight : simpl never.
Global Arguments HashLength : simpl never.
Global Arguments Nat.sub : simpl never.
Lemma TH : TrieHeight = 256. Proof. reflexivity. Qed.
Lemma HL : HashLength = 32. Proof. reflexivity. Qed.
Global Opaque TrieHeight HashLength.
