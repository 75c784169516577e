(** Without collisions, the hash of a well-formed tree determines the tree and its height. *)
From Verif Require Import Base TrieModel TrieSpec BaseLemmas TrieMaps.

Lemma byte_of_nat_N n : Byte.to_N (byte_of_nat n) = (N.of_nat n mod 256)%N.
Proof.
  unfold byte_of_nat. destruct (Byte.of_N (N.of_nat n mod 256)) as [b|] eqn:Hq.
  - apply Byte.to_of_N in Hq. exact Hq.
  - apply Byte.of_N_None_iff in Hq. pose proof (N.mod_upper_bound (N.of_nat n) 256). lia.
Qed.

Lemma byte_of_nat_inj a b : 1 <= a <= TrieHeight -> 1 <= b <= TrieHeight ->
  byte_of_nat a = byte_of_nat b -> a = b.
Proof.
  intros Ha Hb He. rewrite TH in *. apply (f_equal Byte.to_N) in He. rewrite !byte_of_nat_N in He.
  destruct (Nat.eq_dec a 256) as [->|Hna], (Nat.eq_dec b 256) as [->|Hnb]; auto.
  - change (N.of_nat 256 mod 256)%N with 0%N in He. rewrite N.mod_small in He by lia. lia.
  - change (N.of_nat 256 mod 256)%N with 0%N in He. rewrite N.mod_small in He by lia. lia.
  - rewrite !N.mod_small in He by lia. lia.
Qed.

Section Hash.
  Variable H : bytes -> bytes.
  Hypothesis Hlen : forall x, length (H x) = HashLength.
  Variable G : bytes -> Prop.
  Hypothesis Hcf : collision_free H G.

  Definition good (h : nat) (t : tree) : Prop :=
    wf h t /\ forall s, In s (strings_of H h t) -> G s.

  Lemma hash_length h t : t <> E -> length (hash_of H h t) = HashLength.
  Proof. destruct t; simpl; [congruence| |]; intros _; apply Hlen. Qed.

  Lemma hash_nil h t : hash_of H h t = [] <-> t = E.
  Proof.
    split; [|intros ->; reflexivity]. destruct t; auto; simpl; intros Hq;
    apply (f_equal (@length byte)) in Hq; rewrite Hlen, HL in Hq; discriminate.
  Qed.

  Lemma hash_string h t : t <> E -> exists s, In s (strings_of H h t) /\ hash_of H h t = H s.
  Proof. destruct t; simpl; [congruence| |]; intros _; eexists; split; eauto. Qed.

  Lemma wf_pos h t : wf h t -> t <> E -> 1 <= h.
  Proof.
    revert h. induction t as [|k v|l IHl r IHr]; intros h; simpl; [congruence|lia|].
    intros (_ & Hne & Hl & Hr) _. destruct Hne as [Hne|Hne].
    - specialize (IHl _ Hl Hne). lia.
    - specialize (IHr _ Hr Hne). lia.
  Qed.
  Lemma wf_le h t : wf h t -> t <> E -> h <= TrieHeight.
  Proof. destruct t; simpl; [congruence|lia|lia]. Qed.
  Lemma wf_pos_N h l r : wf h (N l r) -> 2 <= h.
  Proof.
    simpl. intros (_ & Hne & Hl & Hr). destruct Hne as [Hne|Hne].
    - pose proof (wf_pos _ _ Hl Hne). lia.
    - pose proof (wf_pos _ _ Hr Hne). lia.
  Qed.

  Lemma good_N h l r : good h (N l r) -> good (pred h) l /\ good (pred h) r.
  Proof.
    intros [(Hh & Hne & Hl & Hr) Hs]. split; split; auto; intros s Hi; apply Hs; simpl; right;
    apply in_app_iff; auto.
  Qed.

  Lemma good_string h t : good h t -> t <> E -> exists s, G s /\ hash_of H h t = H s.
  Proof. intros [_ Hs] Hne. destruct (hash_string h t Hne) as (s & Hi & Hq). eauto. Qed.

  Lemma inner_string_inj h1 h2 l1 r1 l2 r2 :
    good h1 l1 -> good h1 r1 -> good h2 l2 -> good h2 r2 ->
    (l1 <> E \/ r1 <> E) -> (l2 <> E \/ r2 <> E) ->
    inner_string (hash_of H h1 l1) (hash_of H h1 r1) = inner_string (hash_of H h2 l2) (hash_of H h2 r2) ->
    hash_of H h1 l1 = hash_of H h2 l2 /\ hash_of H h1 r1 = hash_of H h2 r2.
  Proof.
    intros Gl1 Gr1 Gl2 Gr2 Hn1 Hn2 Hq.
    assert (Hcase : forall h t, good h t ->
      (t = E /\ hash_of H h t = []) \/
      (t <> E /\ exists s x y, G s /\ hash_of H h t = H s /\ hash_of H h t = x :: y /\ length (x :: y) = 32)).
    { intros h t Gt. destruct t as [|k v|a b].
      - left. auto.
      - right. split; [discriminate|]. destruct (good_string _ _ Gt ltac:(discriminate)) as (s & Hs & He).
        pose proof (hash_length h (L k v) ltac:(discriminate)) as Hl. rewrite HL in Hl.
        destruct (hash_of H h (L k v)) as [|x y] eqn:Hh; [discriminate|]. exists s, x, y. auto.
      - right. split; [discriminate|]. destruct (good_string _ _ Gt ltac:(discriminate)) as (s & Hs & He).
        pose proof (hash_length h (N a b) ltac:(discriminate)) as Hl. rewrite HL in Hl.
        destruct (hash_of H h (N a b)) as [|x y] eqn:Hh; [discriminate|]. exists s, x, y. auto. }
    destruct Hcf as [_ Hamb]. unfold inner_string in Hq.
    destruct (Hcase _ _ Gl1) as [[El1 Hl1]|(Nl1 & s1 & x1 & y1 & Gs1 & Hs1 & Hl1 & Ll1)];
    destruct (Hcase _ _ Gr1) as [[Er1 Hr1]|(Nr1 & s2 & x2 & y2 & Gs2 & Hs2 & Hr1 & Lr1)];
    destruct (Hcase _ _ Gl2) as [[El2 Hl2]|(Nl2 & s3 & x3 & y3 & Gs3 & Hs3 & Hl2 & Ll2)];
    destruct (Hcase _ _ Gr2) as [[Er2 Hr2]|(Nr2 & s4 & x4 & y4 & Gs4 & Hs4 & Hr2 & Lr2)];
    try tauto; rewrite Hl1, Hr1, Hl2, Hr2 in *;
    try (apply (f_equal (@length byte)) in Hq; rewrite !app_length in Hq;
         unfold DefaultLeaf in Hq; cbn [length] in Hq, Ll1, Lr1, Ll2, Lr2; lia);
    try (apply (f_equal (@length byte)) in Hq; rewrite !app_length in Hq;
         unfold DefaultLeaf in Hq; cbn [length] in *; lia).
    - (* E r / E r *) split; auto. apply app_inv_head in Hq. exact Hq.
    - (* E r / l E *) exfalso. apply (Hamb s2 s3 Gs2 Gs3). rewrite <- Hs2, <- Hs3. exact Hq.
    - (* l E / E r *) exfalso. apply (Hamb s4 s1 Gs4 Gs1). rewrite <- Hs4, <- Hs1. symmetry. exact Hq.
    - (* l E / l E *) split; auto. apply app_inv_tail in Hq. exact Hq.
    - (* l r / l r *)
      apply (f_equal (firstn 32)) in Hq as Hf. rewrite !firstn_app_exact in Hf by assumption.
      split; auto. rewrite Hf in Hq. apply app_inv_head in Hq. exact Hq.
  Qed.

  Lemma leaf_string_length k v h : length k = HashLength -> length v = HashLength ->
    length (leaf_string k v h) = 65.
  Proof. intros Hk Hv. unfold leaf_string. rewrite !app_length, Hk, Hv, HL. reflexivity. Qed.

  Lemma inner_string_length h l r : length (inner_string (hash_of H h l) (hash_of H h r)) <= 64.
  Proof.
    unfold inner_string. rewrite app_length.
    assert (Hc : forall t, length match hash_of H h t with [] => DefaultLeaf | _ :: _ => hash_of H h t end <= 32).
    { intros t. destruct t as [|k v|a b]; [simpl; lia| |].
      - pose proof (hash_length h (L k v) ltac:(discriminate)) as Hl. rewrite HL in Hl.
        destruct (hash_of H h (L k v)); [discriminate|lia].
      - pose proof (hash_length h (N a b) ltac:(discriminate)) as Hl. rewrite HL in Hl.
        destruct (hash_of H h (N a b)); [discriminate|lia]. }
    pose proof (Hc l). pose proof (Hc r). lia.
  Qed.

  Lemma leaf_string_inj k1 v1 h1 k2 v2 h2 :
    length k1 = HashLength -> length v1 = HashLength -> length k2 = HashLength -> length v2 = HashLength ->
    1 <= h1 <= TrieHeight -> 1 <= h2 <= TrieHeight ->
    leaf_string k1 v1 h1 = leaf_string k2 v2 h2 -> k1 = k2 /\ v1 = v2 /\ h1 = h2.
  Proof.
    intros Hk1 Hv1 Hk2 Hv2 Hh1 Hh2 Hq. unfold leaf_string in Hq.
    apply (f_equal (firstn HashLength)) in Hq as Hf. rewrite !firstn_app_exact in Hf by assumption. subst k2.
    apply app_inv_head in Hq.
    apply (f_equal (firstn HashLength)) in Hq as Hf. rewrite !firstn_app_exact in Hf by assumption. subst v2.
    apply app_inv_head in Hq. injection Hq as Hq. apply byte_of_nat_inj in Hq; auto.
  Qed.

  Theorem hash_inj h1 t1 h2 t2 : good h1 t1 -> good h2 t2 -> t1 <> E ->
    hash_of H h1 t1 = hash_of H h2 t2 -> t1 = t2 /\ h1 = h2.
  Proof.
    revert h1 h2 t2. induction t1 as [|k1 v1|l1 IHl r1 IHr]; intros h1 h2 t2 G1 G2 Hne Hq; [congruence| |].
    - assert (Hne2 : t2 <> E).
      { intros ->. apply hash_nil in Hq. discriminate. }
      destruct G1 as [W1 S1], G2 as [W2 S2].
      destruct t2 as [|k2 v2|l2 r2]; [congruence| |].
      + simpl in *. destruct W1 as (W1 & Hk1 & Hv1), W2 as (W2 & Hk2 & Hv2).
        apply Hcf in Hq; auto. apply leaf_string_inj in Hq; auto. destruct Hq as (-> & -> & ->). auto.
      + exfalso. simpl in *. destruct W1 as (W1 & Hk1 & Hv1). apply Hcf in Hq; auto.
        apply (f_equal (@length byte)) in Hq. rewrite leaf_string_length in Hq by assumption.
        pose proof (inner_string_length (pred h2) l2 r2). lia.
    - assert (Hne2 : t2 <> E).
      { intros ->. apply hash_nil in Hq. discriminate. }
      destruct t2 as [|k2 v2|l2 r2]; [congruence| |].
      + exfalso. destruct G1 as [W1 S1], G2 as [W2 S2]. simpl in *. destruct W2 as (W2 & Hk2 & Hv2).
        apply Hcf in Hq; auto.
        apply (f_equal (@length byte)) in Hq. rewrite leaf_string_length in Hq by assumption.
        pose proof (inner_string_length (pred h1) l1 r1). lia.
      + pose proof (wf_pos_N _ _ _ (proj1 G1)) as P1. pose proof (wf_pos_N _ _ _ (proj1 G2)) as P2.
        pose proof (good_N _ _ _ G1) as [Gl1 Gr1]. pose proof (good_N _ _ _ G2) as [Gl2 Gr2].
        destruct G1 as [(_ & N1 & _) S1], G2 as [(_ & N2 & _) S2]. simpl in Hq.
        apply Hcf in Hq; [|apply S1; simpl; auto|apply S2; simpl; auto].
        apply inner_string_inj in Hq; auto. destruct Hq as [Hql Hqr].
        assert (Hl : l1 = l2 /\ (l1 <> E -> pred h1 = pred h2)).
        { destruct (hash_of H (pred h1) l1) eqn:He.
          - apply hash_nil in He. symmetry in Hql. apply hash_nil in Hql. subst. split; congruence.
          - rewrite <- He in Hql.
            destruct (IHl (pred h1) (pred h2) l2) as [-> Hp]; auto.
            intros ->. simpl in He. discriminate. }
        assert (Hr : r1 = r2 /\ (r1 <> E -> pred h1 = pred h2)).
        { destruct (hash_of H (pred h1) r1) eqn:He.
          - apply hash_nil in He. symmetry in Hqr. apply hash_nil in Hqr. subst. split; congruence.
          - rewrite <- He in Hqr.
            destruct (IHr (pred h1) (pred h2) r2) as [-> Hp]; auto.
            intros ->. simpl in He. discriminate. }
        destruct Hl as [-> Hl], Hr as [-> Hr]. split; [reflexivity|].
        destruct N1 as [N1|N1]; [specialize (Hl N1)|specialize (Hr N1)]; lia.
  Qed.
End Hash.
