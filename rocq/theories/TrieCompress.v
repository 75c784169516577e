(** Compressed audit paths, totality of verification, length of serialized batches. *)
From Verif Require Import Base TrieModel TrieSpec BaseLemmas TrieMaps TrieHash TrieStore TrieBatch TrieCodec.

Definition nondefault (e : bytes) : bool := negb (beqb e DefaultLeaf).

Lemma compress_path i path bm : snd (compress_from i path bm) = filter nondefault path.
Proof.
  revert i bm. induction path as [|e path IH]; intros i bm; cbn [compress_from filter]; [reflexivity|].
  unfold nondefault. destruct (beqb e DefaultLeaf); cbn [negb]; [apply IH|].
  specialize (IH (S i) (bit_set bm i)). destruct (compress_from (S i) path (bit_set bm i)) as [bm' mp].
  cbn [snd] in *. f_equal. exact IH.
Qed.

Lemma compress_length i path bm : length (fst (compress_from i path bm)) = length bm.
Proof.
  revert i bm. induction path as [|e path IH]; intros i bm; cbn [compress_from]; [reflexivity|].
  destruct (beqb e DefaultLeaf); [apply IH|]. specialize (IH (S i) (bit_set bm i)).
  destruct (compress_from (S i) path (bit_set bm i)) as [bm' mp]. cbn [fst] in *. rewrite IH. apply bit_set_length.
Qed.

Lemma compress_bits i path bm j : i + length path <= 8 * length bm ->
  bit (fst (compress_from i path bm)) j =
  bit bm j || (Nat.leb i j && Nat.ltb j (i + length path) && nondefault (nth (j - i) path [])).
Proof.
  revert i bm. induction path as [|e path IH]; intros i bm Hl; cbn [compress_from].
  - cbn [length fst]. destruct (Nat.leb_spec i j), (Nat.ltb_spec j (i + 0)); try lia; rewrite ?orb_false_r; reflexivity.
  - cbn [length] in Hl.
    assert (Hbit : forall bm', bit (fst (compress_from (S i) path bm')) j = bit bm' j || (Nat.leb (S i) j && Nat.ltb j (S i + length path) && nondefault (nth (j - S i) path [])) ->
      (bit bm' j = bit bm j || (Nat.eqb j i && nondefault e)) ->
      bit (fst (compress_from (S i) path bm')) j =
      bit bm j || (Nat.leb i j && Nat.ltb j (i + length (e :: path)) && nondefault (nth (j - i) (e :: path) []))).
    { intros bm' -> ->. cbn [length]. destruct (Nat.eqb_spec j i) as [->|Hne].
      - rewrite Nat.sub_diag. cbn [nth]. rewrite Nat.leb_refl.
        destruct (Nat.leb_spec (S i) i); [lia|]. destruct (Nat.ltb_spec i (i + S (length path))); [|lia].
        cbn [andb]. rewrite orb_false_r. reflexivity.
      - cbn [andb]. rewrite orb_false_r. f_equal.
        destruct (Nat.leb_spec (S i) j), (Nat.leb_spec i j); try lia.
        replace (j - i) with (S (j - S i)) by lia. cbn [nth]. f_equal. f_equal.
        destruct (Nat.ltb_spec j (S i + length path)), (Nat.ltb_spec j (i + S (length path))); try lia; reflexivity. }
    destruct (beqb e DefaultLeaf) eqn:He.
    + apply Hbit; [apply IH; lia|]. unfold nondefault. rewrite He. cbn [negb]. rewrite andb_false_r, orb_false_r. reflexivity.
    + assert (Hq : bit (fst (compress_from (S i) path (bit_set bm i))) j =
                   bit bm j || (Nat.leb i j && Nat.ltb j (i + length (e :: path)) && nondefault (nth (j - i) (e :: path) []))).
      { apply Hbit; [apply IH; rewrite bit_set_length; lia|]. unfold nondefault. rewrite He. cbn [negb].
        rewrite andb_true_r, bit_bit_set by lia. apply orb_comm. }
      destruct (compress_from (S i) path (bit_set bm i)) as [bm' mp]. exact Hq.
Qed.

Lemma bit_zeros n j : bit (repeat x00 n) j = false.
Proof.
  unfold bit, bit_is_set. destruct (nth_error (repeat x00 n) (j / 8)) as [b|] eqn:Hb; [|reflexivity].
  apply nth_error_In, repeat_spec in Hb. subst b. unfold byte_bit. apply N.bits_0.
Qed.

Lemma firstn_S_snoc {A} (d : A) n l : n < length l -> firstn (S n) l = firstn n l ++ [nth n l d].
Proof.
  revert l. induction n as [|n IH]; intros [|x l] Hl; simpl in Hl; try lia; [reflexivity|].
  cbn [nth]. change (firstn (S (S n)) (x :: l)) with (x :: firstn (S n) l). rewrite IH by lia. reflexivity.
Qed.

Section Compress.
  Variable H : bytes -> bytes.

  Lemma compress_verify ap key leaf bm mp : compress ap = (bm, mp) -> forall n i, n <= length ap ->
    verify_path_c H bm key leaf mp i n (length (filter nondefault (skipn n ap))) =
    verify_path H ap i n key leaf.
  Proof.
    intros Hc. unfold compress in Hc.
    assert (Hlb : length ap <= 8 * (length ap / 8 + 1)).
    { pose proof (Nat.div_mod (length ap) 8 ltac:(lia)). pose proof (Nat.mod_upper_bound (length ap) 8 ltac:(lia)). lia. }
    pose proof (compress_path 0 ap (repeat x00 (length ap / 8 + 1))) as Hmp.
    pose proof (compress_length 0 ap (repeat x00 (length ap / 8 + 1))) as Hbl.
    pose proof (fun j => compress_bits 0 ap (repeat x00 (length ap / 8 + 1)) j ltac:(rewrite repeat_length; lia)) as Hbits.
    rewrite Hc in Hmp, Hbl, Hbits. cbn [fst snd] in *. rewrite repeat_length in Hbl.
    induction n as [|n IH]; intros i Hn; cbn [verify_path_c verify_path]; [reflexivity|].
    destruct (bit_is_set key i) as [b|] eqn:Hb; [|reflexivity].
    rewrite (bit_is_set_some bm n) by lia. rewrite Hbits, bit_zeros, Nat.sub_0_r. change (0 <=? n) with true. cbn [orb andb].
    destruct (Nat.ltb_spec n (0 + length ap)); [|lia]. cbn [andb].
    set (e := nth n ap []).
    assert (Hsk : skipn n ap = e :: skipn (S n) ap).
    { unfold e. clear -Hn. revert ap Hn. induction n as [|n IH]; intros [|x ap] Hn; simpl in Hn; try lia; [reflexivity|].
      cbn [nth]. change (skipn (S n) (x :: ap)) with (skipn n ap). rewrite IH by lia. reflexivity. }
    specialize (IH (S i) ltac:(lia)). rewrite Hsk in IH. cbn [filter] in IH.
    destruct (nondefault e) eqn:He.
    - cbn [length] in IH. set (a := length (filter nondefault (skipn (S n) ap))) in *.
      assert (Hsplit : mp = filter nondefault (firstn n ap) ++ e :: filter nondefault (skipn (S n) ap)).
      { rewrite Hmp, <- (firstn_skipn n ap) at 1. rewrite filter_app, Hsk. cbn [filter]. rewrite He. reflexivity. }
      assert (Hlm : length mp = length (filter nondefault (firstn n ap)) + S a).
      { rewrite Hsplit, app_length. cbn [length]. unfold a. lia. }
      destruct (Nat.leb_spec (S a) (length mp)); [|lia]. rewrite IH.
      destruct (verify_path H ap (S i) n key leaf) as [x|]; [|reflexivity].
      assert (Hnth : nth (length mp - a - 1) mp [] = e).
      { rewrite Hlm. replace (length (filter nondefault (firstn n ap)) + S a - a - 1) with (length (filter nondefault (firstn n ap))) by lia.
        rewrite Hsplit. apply nth_middle. }
      rewrite Hnth. reflexivity.
    - rewrite IH. assert (Hd : e = DefaultLeaf).
      { unfold nondefault in He. apply beqb_eq. destruct (beqb e DefaultLeaf); [reflexivity|discriminate]. }
      rewrite Hd. reflexivity.
  Qed.

  Theorem compress_inclusion ap bm mp root key value : compress ap = (bm, mp) ->
    verify_inclusion_c H root bm key value mp (length ap) = verify_inclusion H root ap key value.
  Proof.
    intros Hc. unfold verify_inclusion_c, verify_inclusion.
    pose proof (compress_verify ap key (H (key ++ value ++ [depth_byte (length ap)])) bm mp Hc (length ap) 0 (Nat.le_refl _)) as Hv.
    rewrite skipn_all in Hv. cbn [filter length] in Hv. rewrite Hv. reflexivity.
  Qed.
  Theorem compress_non_inclusion ap bm mp root key value proofKey : compress ap = (bm, mp) ->
    verify_non_inclusion_c H root mp (length ap) bm key value proofKey =
    verify_non_inclusion H (Some root) ap key value proofKey.
  Proof.
    intros Hc. destruct proofKey as [|p pk]; cbn [verify_non_inclusion_c verify_non_inclusion].
    - pose proof (compress_verify ap key DefaultLeaf bm mp Hc (length ap) 0 (Nat.le_refl _)) as Hv.
      rewrite skipn_all in Hv. cbn [filter length] in Hv. rewrite Hv. reflexivity.
    - rewrite (compress_inclusion ap bm mp) by exact Hc. reflexivity.
  Qed.

  (** ** Totality *)
  Lemma verify_path_total ap key leaf n : forall i, i + n <= 8 * length key -> exists x, verify_path H ap i n key leaf = Some x.
  Proof.
    induction n as [|n IH]; intros i Hi; cbn [verify_path]; [eauto|].
    rewrite bit_is_set_some by lia. destruct (IH (S i) ltac:(lia)) as (x & ->). eauto.
  Qed.
  Lemma verify_inclusion_total root ap key value : length ap <= 8 * length key ->
    exists b, verify_inclusion H root ap key value = Some b.
  Proof.
    intros Hl. unfold verify_inclusion.
    destruct (verify_path_total ap key (H (key ++ value ++ [depth_byte (length ap)])) (length ap) 0) as (x & ->); [lia|eauto].
  Qed.
  Lemma same_prefix_total key pk n : forall b, b + n <= 8 * length key -> b + n <= 8 * length pk ->
    exists r, same_prefix key pk b n = Some r.
  Proof.
    induction n as [|n IH]; intros b H1 H2; cbn [same_prefix]; [eauto|].
    rewrite !bit_is_set_some by lia. destruct (Bool.eqb _ _); [apply IH; lia | eauto].
  Qed.
  Lemma verify_non_inclusion_total root ap key value proofKey :
    length ap <= 8 * length key -> (proofKey = [] \/ length ap <= 8 * length proofKey) ->
    exists b, verify_non_inclusion H root ap key value proofKey = Some b.
  Proof.
    intros Hl Hp. destruct root as [root|]; [|cbn [verify_non_inclusion]; eauto].
    destruct proofKey as [|p pk] eqn:Ep; cbn [verify_non_inclusion].
    - destruct (verify_path_total ap key DefaultLeaf (length ap) 0) as (x & ->); [lia|eauto].
    - rewrite <- Ep in *. destruct Hp as [Hp|Hp]; [rewrite Ep in Hp; discriminate|].
      destruct (verify_inclusion_total root ap proofKey value Hp) as ([|] & ->); [|eauto].
      apply same_prefix_total; lia.
  Qed.
End Compress.

(** ** Length of serialized batches *)
Lemma concat_length_33 (l : list bytes) : (forall x, In x l -> x = [] \/ length x = 33) ->
  length (concat l) = 33 * length (filter nonempty l).
Proof.
  induction l as [|x l IH]; intros Hx; [reflexivity|]. cbn [concat filter]. rewrite app_length, IH by (intros y Hy; apply Hx; simpl; auto).
  destruct (Hx x ltac:(simpl; auto)) as [->|Hl]; [cbn; lia|]. destruct x as [|b x]; [discriminate|].
  cbn [nonempty]. cbn [length] in *. lia.
Qed.
Lemma serialize_length b : wf_batch b -> length (serialize_batch b) = 4 + 33 * length (filter nonempty (tl b)).
Proof.
  intros [Hl Hc]. destruct (batch_cons b Hl) as (rest & Hb & Hlr & Hs).
  assert (Htl : tl b = rest) by (rewrite Hb; reflexivity). unfold serialize_batch. rewrite Htl. cbv zeta.
  set (acc := if beqb (firstn 1 (slot 0 b)) [x01] then bit_set (repeat x00 4) 31 else repeat x00 4).
  assert (Hacc : length acc = 4) by (unfold acc; destruct (beqb _ _); rewrite ?bit_set_length; reflexivity).
  pose proof (serialize_slots_eq 1 rest acc [] ltac:(lia) ltac:(rewrite Hacc, Hlr; lia)) as Hq.
  rewrite app_nil_r, app_nil_l in Hq. rewrite Hq, app_length, set_bits_length, Hacc. f_equal.
  apply concat_length_33. intros x Hx. apply (In_nth _ _ []) in Hx as (k & Hk & <-). rewrite <- Hs.
  unfold bytes in *. assert (Hk30 : k < 30) by lia. destruct Hc as [[_ Hss]|(_ & H1 & H2 & Hss)]; [apply Hss; lia|].
  destruct k as [|[|k]]; [auto|auto|]. left. apply Hss. lia.
Qed.
