(** Serialization of node batches and its inverse. *)
From Verif Require Import Base TrieModel TrieSpec BaseLemmas TrieMaps TrieHash TrieStore.

(** ** bitSet *)
Definition set_byte_bit (b : byte) (i : nat) : byte :=
  match Byte.of_N (N.lor (Byte.to_N b) (N.shiftl 1 (N.of_nat (7 - i)))) with Some b' => b' | None => b end.
Definition set_bit_ok (b : byte) : bool :=
  forallb (fun i =>
    match Byte.of_N (N.lor (Byte.to_N b) (N.shiftl 1 (N.of_nat (7 - i)))) with
    | Some b' => forallb (fun j => Bool.eqb (byte_bit b' j) (Nat.eqb j i || byte_bit b j)) (seq 0 8)
    | None => false
    end) (seq 0 8).
Lemma set_bit_all : forall b, set_bit_ok b = true.
Proof. apply byte_sweep. vm_compute. reflexivity. Qed.
Lemma set_bit_spec b i : i < 8 -> exists b',
  Byte.of_N (N.lor (Byte.to_N b) (N.shiftl 1 (N.of_nat (7 - i)))) = Some b' /\
  forall j, j < 8 -> byte_bit b' j = Nat.eqb j i || byte_bit b j.
Proof.
  intros Hi. pose proof (set_bit_all b) as Hs. unfold set_bit_ok in Hs. rewrite forallb_forall in Hs.
  specialize (Hs i ltac:(apply in_seq; lia)).
  destruct (Byte.of_N (N.lor (Byte.to_N b) (N.shiftl 1 (N.of_nat (7 - i))))) as [b'|]; [|discriminate].
  exists b'. split; [reflexivity|]. intros j Hj. rewrite forallb_forall in Hs.
  specialize (Hs j ltac:(apply in_seq; lia)). apply eqb_prop in Hs. exact Hs.
Qed.

Lemma bit_set_length bs i : length (bit_set bs i) = length bs.
Proof.
  unfold bit_set. destruct (nth_error bs (i / 8)); [|reflexivity].
  destruct (Byte.of_N _); [apply set_nth_length | reflexivity].
Qed.

Lemma nth_error_set_nth {A} i (x : A) l j : i < length l ->
  nth_error (set_nth i x l) j = if Nat.eqb j i then Some x else nth_error l j.
Proof.
  revert i j. induction l as [|y l IH]; intros i j Hi; [simpl in Hi; lia|].
  destruct i as [|i], j as [|j]; cbn [set_nth nth_error Nat.eqb]; try reflexivity.
  apply IH. simpl in Hi. lia.
Qed.

Lemma bit_bit_set bs i j : i < 8 * length bs -> bit (bit_set bs i) j = Nat.eqb j i || bit bs j.
Proof.
  intros Hi. pose proof (Nat.div_mod i 8 ltac:(lia)) as Di. pose proof (Nat.mod_upper_bound i 8 ltac:(lia)) as Mi.
  pose proof (Nat.div_mod j 8 ltac:(lia)) as Dj. pose proof (Nat.mod_upper_bound j 8 ltac:(lia)) as Mj.
  assert (Hlt : i / 8 < length bs) by lia.
  unfold bit_set. destruct (nth_error bs (i / 8)) as [b|] eqn:Hb; [|apply nth_error_None in Hb; lia].
  destruct (set_bit_spec b (i mod 8) Mi) as (b' & -> & Hb'). unfold bit, bit_is_set.
  rewrite nth_error_set_nth by exact Hlt. destruct (Nat.eqb_spec (j / 8) (i / 8)) as [He|He].
  - rewrite He, Hb, Hb' by exact Mj. f_equal.
    destruct (Nat.eqb_spec (j mod 8) (i mod 8)), (Nat.eqb_spec j i); try reflexivity; exfalso; lia.
  - destruct (Nat.eqb_spec j i) as [->|]; [contradiction|]. reflexivity.
Qed.

Lemma bit_set_app a b i : i < 8 * length a -> bit_set (a ++ b) i = bit_set a i ++ b.
Proof.
  intros Hi. pose proof (Nat.div_mod i 8 ltac:(lia)) as Di. pose proof (Nat.mod_upper_bound i 8 ltac:(lia)) as Mi.
  assert (Hlt : i / 8 < length a) by lia.
  unfold bit_set. rewrite nth_error_app1 by exact Hlt.
  destruct (nth_error a (i / 8)) as [x|]; [|reflexivity]. destruct (Byte.of_N _) as [y|]; [|reflexivity].
  clear Di Mi Hi. revert Hlt. generalize (i / 8). clear i. induction a as [|z a IH]; intros i Hi; [simpl in Hi; lia|].
  destruct i as [|i]; cbn [set_nth app]; [reflexivity|]. f_equal. apply IH. simpl in Hi. lia.
Qed.

Lemma bit_app a b i : i < 8 * length a -> bit (a ++ b) i = bit a i.
Proof.
  intros Hi. pose proof (Nat.div_mod i 8 ltac:(lia)) as Di. pose proof (Nat.mod_upper_bound i 8 ltac:(lia)) as Mi.
  unfold bit, bit_is_set. rewrite nth_error_app1 by lia. reflexivity.
Qed.

(** ** Batches that occur in the trie *)
Definition wf_batch (b : batch) : Prop :=
  length b = 31 /\
  ((slot 0 b = [x00] /\ forall i, 1 <= i <= 30 -> slot i b = [] \/ length (slot i b) = 33) \/
   (slot 0 b = [x01] /\ length (slot 1 b) = 33 /\ length (slot 2 b) = 33 /\
    forall i, 3 <= i <= 30 -> slot i b = [])).

Definition nonempty (x : bytes) : bool := match x with [] => false | _ :: _ => true end.
Fixpoint set_bits (i : nat) (slots : list bytes) (bm : bytes) : bytes :=
  match slots with
  | [] => bm
  | s :: rest => set_bits (S i) rest (if nonempty s then bit_set bm (i - 1) else bm)
  end.

Lemma set_bits_length i slots bm : length (set_bits i slots bm) = length bm.
Proof.
  revert i bm. induction slots as [|s slots IH]; intros i bm; [reflexivity|]. cbn [set_bits]. rewrite IH.
  destruct (nonempty s); [apply bit_set_length | reflexivity].
Qed.

Lemma serialize_slots_eq i slots bm data : 1 <= i -> i - 1 + length slots <= 8 * length bm ->
  serialize_slots i slots (bm ++ data) = set_bits i slots bm ++ data ++ concat slots.
Proof.
  revert i bm data. induction slots as [|s slots IH]; intros i bm data Hi Hl; cbn [serialize_slots set_bits concat].
  - rewrite app_nil_r. reflexivity.
  - cbn [length] in Hl. destruct s as [|y s].
    + cbn [nonempty app]. apply IH; lia.
    + cbn [nonempty]. rewrite bit_set_app by lia. rewrite <- app_assoc. rewrite IH.
      * rewrite <- app_assoc. reflexivity.
      * lia.
      * rewrite bit_set_length. lia.
Qed.

Lemma set_bits_bit i slots bm j : 1 <= i -> i - 1 + length slots <= 8 * length bm ->
  bit (set_bits i slots bm) j =
  bit bm j || (Nat.leb (i - 1) j && nonempty (nth (j - (i - 1)) slots [])).
Proof.
  revert i bm. induction slots as [|s slots IH]; intros i bm Hi Hl; cbn [set_bits].
  - destruct (j - (i - 1)); cbn [nth nonempty]; rewrite andb_false_r, orb_false_r; reflexivity.
  - cbn [length] in Hl. rewrite IH; [|lia|destruct (nonempty s); rewrite ?bit_set_length; lia].
    replace (S i - 1) with i by lia.
    assert (Hb : bit (if nonempty s then bit_set bm (i - 1) else bm) j = bit bm j || (Nat.eqb j (i - 1) && nonempty s)).
    { destruct (nonempty s); [|rewrite andb_false_r, orb_false_r; reflexivity].
      rewrite bit_bit_set by lia. rewrite andb_true_r. apply orb_comm. }
    rewrite Hb. destruct (Nat.eqb_spec j (i - 1)) as [->|Hj].
    + replace (i - 1 - (i - 1)) with 0 by lia. cbn [nth]. rewrite Nat.leb_refl.
      destruct (Nat.leb_spec i (i - 1)); [lia|]. cbn [andb]. rewrite orb_false_r. reflexivity.
    + cbn [andb]. rewrite orb_false_r. destruct (Nat.leb_spec i j).
      * destruct (Nat.leb_spec (i - 1) j); [|lia]. replace (j - (i - 1)) with (S (j - i)) by lia. reflexivity.
      * destruct (Nat.leb_spec (i - 1) j); [lia|]. reflexivity.
Qed.

Lemma bit_zero j : bit (repeat x00 4) j = false.
Proof.
  destruct (Nat.ltb_spec j 32) as [Hj|Hj].
  - do 32 (destruct j as [|j]; [reflexivity|]). lia.
  - unfold bit. rewrite bit_is_set_none by (simpl; lia). reflexivity.
Qed.

Definition count (slots : list bytes) : nat := length (filter nonempty slots).

(** Slots of length 0 or 33 are read back from their concatenation. *)
Lemma parse_slots_eq val slots i j pre :
  (forall k, k < length slots -> bit (firstn 4 val) (i + k - 1) = nonempty (nth k slots [])) ->
  1 <= i -> length pre = 4 + 33 * j -> val = pre ++ concat slots ->
  (forall s, In s slots -> s = [] \/ length s = 33) ->
  parse_slots val i (length slots) j = slots.
Proof.
  revert i j pre. induction slots as [|s slots IH]; intros i j pre Hb Hi Hp Hv Hl; cbn [parse_slots length]; [reflexivity|].
  pose proof (Hb 0 ltac:(simpl; lia)) as Hb0. replace (i + 0 - 1) with (i - 1) in Hb0 by lia. rewrite Hb0. cbn [nth].
  assert (Hbs : forall k, k < length slots -> bit (firstn 4 val) (S i + k - 1) = nonempty (nth k slots [])).
  { intros k Hk. replace (S i + k - 1) with (i + S k - 1) by lia. apply (Hb (S k)). simpl. lia. }
  assert (Hls : forall x, In x slots -> x = [] \/ length x = 33) by (intros x Hx; apply Hl; simpl; auto).
  destruct (Hl s) as [->|Hs]; [simpl; auto| |].
  - cbn [nonempty]. f_equal. apply (IH (S i) j pre); auto; lia.
  - assert (Hne : nonempty s = true) by (destruct s; [discriminate|reflexivity]). rewrite Hne. f_equal.
    + unfold sub. rewrite Hv. rewrite skipn_app_exact by exact Hp.
      replace (4 + 33 * (j + 1) - (4 + 33 * j)) with 33 by lia. cbn [concat]. apply firstn_app_exact. exact Hs.
    + apply (IH (S i) (S j) (pre ++ s)); auto; try lia.
      * rewrite app_length. lia.
      * rewrite Hv. cbn [concat]. rewrite app_assoc. reflexivity.
Qed.

Lemma batch_cons (b : batch) : length b = 31 -> exists rest, b = slot 0 b :: rest /\ length rest = 30 /\
  forall i, slot (S i) b = nth i rest [].
Proof.
  destruct b as [|s0 rest]; [discriminate|]. intros Hl. exists rest. split; [reflexivity|].
  split; [simpl in Hl; lia | reflexivity].
Qed.

Theorem parse_serialize b : wf_batch b -> parse_batch (serialize_batch b) = b.
Proof.
  intros [Hl Hc]. destruct (batch_cons b Hl) as (rest & Hb & Hlr & Hs).
  assert (Htl : tl b = rest) by (rewrite Hb; reflexivity).
  unfold serialize_batch. rewrite Htl.
  destruct Hc as [[H0 Hss]|(H0 & H1 & H2 & Hss)].
  - rewrite H0. change (beqb (firstn 1 [x00]) [x01]) with false. cbv iota.
    pose proof (serialize_slots_eq 1 rest (repeat x00 4) [] ltac:(lia) ltac:(rewrite repeat_length; lia)) as Hq.
    rewrite app_nil_r, app_nil_l in Hq. cbv zeta. rewrite Hq. clear Hq.
    set (bm := set_bits 1 rest (repeat x00 4)).
    assert (Hlm : length bm = 4) by (unfold bm; rewrite set_bits_length; reflexivity).
    assert (Hbit : forall j, bit bm j = nonempty (nth j rest [])).
    { intros j. unfold bm. rewrite set_bits_bit by (rewrite ?repeat_length; lia). rewrite bit_zero.
      cbn [orb]. replace (1 - 1) with 0 by lia. rewrite Nat.sub_0_r. reflexivity. }
    unfold parse_batch. rewrite bit_app by (rewrite Hlm; lia). rewrite Hbit, nth_overflow by lia. cbn [nonempty].
    rewrite Hb, H0. f_equal. rewrite <- Hlr at 1. apply (parse_slots_eq _ rest 1 0 bm).
    + intros k Hk. rewrite firstn_app_exact by exact Hlm. rewrite Hbit. replace (1 + k - 1) with k by lia. reflexivity.
    + lia.
    + rewrite Hlm. lia.
    + reflexivity.
    + intros x Hx. apply (In_nth _ _ []) in Hx as (k & Hk & <-). rewrite <- Hs. apply Hss. unfold bytes in *. lia.
  - rewrite H0. change (beqb (firstn 1 [x01]) [x01]) with true. cbv iota.
    pose proof (serialize_slots_eq 1 rest (bit_set (repeat x00 4) 31) [] ltac:(lia)
                  ltac:(rewrite bit_set_length, repeat_length; lia)) as Hq.
    rewrite app_nil_r, app_nil_l in Hq. cbv zeta. rewrite Hq. clear Hq.
    set (bm := set_bits 1 rest (bit_set (repeat x00 4) 31)).
    assert (Hlm : length bm = 4) by (unfold bm; rewrite set_bits_length, bit_set_length; reflexivity).
    assert (Hbit : bit bm 31 = true).
    { unfold bm. rewrite set_bits_bit by (rewrite ?bit_set_length, ?repeat_length; lia).
      rewrite bit_bit_set by (rewrite repeat_length; lia). reflexivity. }
    assert (Hrest : rest = slot 1 b :: slot 2 b :: repeat [] 28).
    { rewrite !Hs. destruct rest as [|r1 [|r2 rest]]; try discriminate. cbn [nth]. f_equal. f_equal.
      apply (nth_ext _ _ [] []); [rewrite repeat_length; simpl in Hlr; unfold bytes in *; lia|]. intros n Hn.
      rewrite nth_repeat. pose proof (Hss (n + 3)) as Hq. simpl in Hlr. replace (n + 3) with (S (S (S n))) in Hq by lia.
      rewrite Hs in Hq. apply Hq. unfold bytes in *. lia. }
    unfold parse_batch. rewrite bit_app by (rewrite Hlm; lia). rewrite Hbit.
    assert (Hcat : concat rest = slot 1 b ++ slot 2 b).
    { rewrite Hrest. cbn [concat]. f_equal. rewrite <- (app_nil_r (slot 2 b)) at 2. f_equal. }
    assert (S1 : sub 4 37 (bm ++ concat rest) = slot 1 b).
    { unfold sub. rewrite skipn_app_exact by exact Hlm. rewrite Hcat. apply firstn_app_exact. exact H1. }
    assert (S2 : sub 37 70 (bm ++ concat rest) = slot 2 b).
    { unfold sub. rewrite Hcat, app_assoc. rewrite skipn_app_exact by (rewrite app_length; lia).
      apply firstn_all2. lia. }
    rewrite S1, S2. rewrite Hb at 3. rewrite H0, Hrest. reflexivity.
Qed.

Lemma serialize_nonempty b : length b = 31 -> exists x v, serialize_batch b = x :: v.
Proof.
  intros Hl. destruct (batch_cons b Hl) as (rest & Hb & Hlr & _).
  assert (Hlen : forall i slots acc, 4 <= length acc -> 4 <= length (serialize_slots i slots acc)).
  { intros i slots. revert i. induction slots as [|s slots IH]; intros i acc Ha; [exact Ha|].
    cbn [serialize_slots]. destruct s; apply IH; [exact Ha|]. rewrite app_length, bit_set_length. lia. }
  assert (H4 : 4 <= length (serialize_batch b)).
  { unfold serialize_batch. apply Hlen. destruct (beqb _ _); rewrite ?bit_set_length, repeat_length; lia. }
  destruct (serialize_batch b); [simpl in H4; lia|eauto].
Qed.

(** ** Batches of stored trees *)
Lemma sd_all j : 1 <= j <= 30 -> sd 4 0 j.
Proof.
  intros Hj. do 31 (destruct j as [|j]; [try lia; cbn [sd]; tauto|]). lia.
Qed.

Section Wf.
  Variable H : bytes -> bytes.
  Hypothesis Hlen : forall x, length (H x) = HashLength.
  Notation node := (node H).
  Notation desc := (desc H).

  Lemma node_len h t : node h t = [] \/ length (node h t) = 33.
  Proof.
    destruct t as [|k v|l r]; [auto| |]; right; apply (node_length H Hlen); discriminate.
  Qed.

  Lemma desc_E_slots n i h b j : desc n i h E b -> sd n i j -> slot j b = [].
  Proof.
    revert i h. induction n as [|n IH]; intros i h; cbn [TrieStore.desc sd ltree rtree]; [tauto|].
    intros ((A & B) & C & D) [->|[->|[Hs|Hs]]]; eauto.
  Qed.
  Lemma desc_slots n i h t b j : wf h t -> desc n i h t b -> sd n i j -> slot j b = [] \/ length (slot j b) = 33.
  Proof.
    revert i h t. induction n as [|n IH]; intros i h t Hw; cbn [TrieStore.desc sd]; [tauto|].
    intros (A & B & C) [->|[->|[Hs|Hs]]].
    - destruct t as [|k v|l r].
      + left. apply A.
      + right. destruct A as [-> _]. rewrite app_length. destruct Hw as (_ & -> & _). rewrite HL. reflexivity.
      + destruct A as [-> _]. apply node_len.
    - destruct t as [|k v|l r].
      + left. apply A.
      + right. destruct A as [_ ->]. rewrite app_length. destruct Hw as (_ & _ & ->). rewrite HL. reflexivity.
      + destruct A as [_ ->]. apply node_len.
    - eapply IH; [|exact B|exact Hs]. destruct t; try exact I. apply Hw.
    - eapply IH; [|exact C|exact Hs]. destruct t; try exact I. apply Hw.
  Qed.

  Lemma batch_ok_wf b h t : wf h t -> batch_ok H b h t -> wf_batch b.
  Proof.
    intros Hw (Hl & H0 & Hd). split; [exact Hl|]. destruct t as [|k v|l r]; cbn [is_leaf] in H0.
    - left. split; [exact H0|]. intros i Hi. eapply desc_slots; [exact Hw | exact Hd | apply sd_all; exact Hi].
    - right. split; [exact H0|]. pose proof Hd as ((A & B) & C & D). destruct Hw as (_ & Lk & Lv).
      change (2 * 0 + 1) with 1 in *. change (2 * 0 + 2) with 2 in *. rewrite A, B, !app_length, Lk, Lv, HL.
      split; [reflexivity|]. split; [reflexivity|]. intros i Hi.
      pose proof (sd_all i ltac:(lia)) as Hs. cbn [sd] in Hs. fold sd in Hs.
      destruct Hs as [Hs|[Hs|[Hs|Hs]]]; [lia|lia| |].
      + eapply desc_E_slots; [exact C|]. exact Hs.
      + eapply desc_E_slots; [exact D|]. exact Hs.
    - left. split; [exact H0|]. intros i Hi. eapply desc_slots; [exact Hw | exact Hd | apply sd_all; exact Hi].
  Qed.
End Wf.
