(** Verified proofs say the truth about the map. *)
From Verif Require Import Base TrieModel TrieSpec BaseLemmas TrieMaps TrieHash TrieStore TrieBatch TrieUpdate TrieRead.

(** The subtree reached by [n] bits of [key]. *)
Fixpoint subtree (n i : nat) (key : bytes) (t : tree) : option tree :=
  match n with
  | O => Some t
  | S n' => match t with
            | N l r => subtree n' (S i) key (if bit key i then r else l)
            | _ => None
            end
  end.

Lemma subtree_leaves n i key t k v : subtree n i key t = Some (L k v) -> In (k, v) (leaves t).
Proof.
  revert i t. induction n as [|n IH]; intros i t; cbn [subtree].
  - intros Hq. injection Hq as ->. simpl. auto.
  - destruct t as [|k' v'|l r]; try discriminate. intros Hq. apply IH in Hq. cbn [leaves]. apply in_app_iff.
    destruct (bit key i); auto.
Qed.

Lemma verify_path_bits H ap i n key leaf x : length key = HashLength ->
  verify_path H ap i n key leaf = Some x -> i + n <= TrieHeight \/ n = 0.
Proof.
  intros Hk. revert i x. induction n as [|n IH]; intros i x; [auto|]. cbn [verify_path].
  destruct (bit_is_set key i) as [b|] eqn:Hb; [|discriminate].
  destruct (verify_path H ap (S i) n key leaf) as [y|] eqn:Hy; [|discriminate]. intros _. left.
  destruct (IH _ _ Hy) as [Hl|Hl]; [lia|]. subst n.
  destruct (Nat.lt_ge_cases i TrieHeight) as [Hi|Hi]; [lia|]. rewrite bit_is_set_none in Hb; [discriminate|].
  rewrite Hk, HL. rewrite TH in Hi. lia.
Qed.

Section Sound.
  Variable H : bytes -> bytes.
  Hypothesis Hlen : forall x, length (H x) = HashLength.
  Variable G : bytes -> Prop.
  Hypothesis Hcf : collision_free H G.

  Notation hash_of := (hash_of H).
  Notation good := (good H G).

  Lemma HG_dflt h t : good h t -> t = E /\ dflt (hash_of h t) = DefaultLeaf \/
    t <> E /\ exists s, G s /\ dflt (hash_of h t) = H s /\ hash_of h t = H s.
  Proof.
    intros Hg. destruct (tree_E_dec t) as [->|Hne]; [left; auto|]. right. split; [exact Hne|].
    destruct (good_string H G h t Hg Hne) as (s & Hs & ->). exists s. split; [exact Hs|].
    split; [apply (Hdflt H Hlen) | reflexivity].
  Qed.

  Lemma app_inj_len {A} (a b c d : list A) : length a = length c -> a ++ b = c ++ d -> a = c /\ b = d.
  Proof.
    revert c. induction a as [|x a IH]; intros [|y c] Hl Hq; try discriminate; [auto|].
    simpl in Hq. injection Hq as -> Hq. destruct (IH c) as [-> ->]; auto.
  Qed.

  Lemma last_snoc {A} (a : list A) x d : last (a ++ [x]) d = x.
  Proof. induction a as [|y a IH]; [reflexivity|]. simpl. destruct (a ++ [x]) eqn:Hq; [destruct a; discriminate|exact IH]. Qed.

  Lemma shift_last (y e : bytes) d : y <> [] -> DefaultLeaf ++ y = e ++ DefaultLeaf -> last y d = x00.
  Proof.
    unfold DefaultLeaf. intros Hy Hq. destruct e as [|a e].
    - simpl in Hq. injection Hq as ->. contradiction.
    - simpl in Hq. injection Hq as <- ->. apply last_snoc.
  Qed.
  Lemma shift_hd (y e : bytes) d : y <> [] -> y ++ DefaultLeaf = DefaultLeaf ++ e -> hd d y = x00.
  Proof. unfold DefaultLeaf. destruct y as [|a y]; [congruence|]. intros _ Hq. simpl in Hq. injection Hq as -> _. reflexivity. Qed.

  Definition is_hash (x : bytes) : Prop := exists s, G s /\ x = H s.

  Lemma is_hash_len x : is_hash x -> length x = 32.
  Proof. intros (s & _ & ->). rewrite Hlen. apply HL. Qed.

  (** Where the concatenation of two children can be taken apart. *)
  Lemma split_children A C e x :
    is_hash A \/ A = DefaultLeaf -> is_hash C \/ C = DefaultLeaf -> is_hash A \/ is_hash C ->
    (length e = 32 \/ e = DefaultLeaf) -> is_hash x \/ x = DefaultLeaf ->
    (x = DefaultLeaf -> A = DefaultLeaf -> last C x01 <> x00) -> A ++ C = e ++ x -> A = e /\ C = x.
  Proof.
    intros HA HC Hor He Hx Hu Hq.
    pose proof (f_equal (@length byte) Hq) as Hl. rewrite !app_length in Hl.
    assert (LA : length A = 32 \/ length A = 1) by (destruct HA as [HA|HA]; [apply is_hash_len in HA; auto | subst; auto]).
    assert (LC : length C = 32 \/ length C = 1) by (destruct HC as [HC|HC]; [apply is_hash_len in HC; auto | subst; auto]).
    assert (Lx : length x = 32 \/ length x = 1) by (destruct Hx as [Hx|Hx]; [apply is_hash_len in Hx; auto | subst; auto]).
    assert (Le : length e = 32 \/ length e = 1) by (destruct He as [He|He]; [auto | subst; auto]).
    destruct (Nat.eq_dec (length A) (length e)) as [Hae|Hae]; [apply app_inj_len; assumption|]. exfalso.
    destruct LA as [LA|LA], Le as [Le|Le]; try lia.
    - destruct He as [He|He]; [lia|]. assert (LC1 : length C = 1) by lia. assert (Lx32 : length x = 32) by lia.
      destruct HC as [HC|HC]; [apply is_hash_len in HC; lia|]. destruct HA as [(sa & Ga & ->)|HA]; [|subst; simpl in LA; lia].
      destruct Hx as [(sx & Gx & ->)|Hx]; [|subst; simpl in Lx32; lia]. subst. symmetry in Hq. revert Hq. apply Hcf; assumption.
    - destruct HA as [HA|HA]; [apply is_hash_len in HA; lia|]. assert (LC1 : length C = 32) by lia. assert (Lx1 : length x = 1) by lia.
      destruct Hx as [Hx|Hx]; [apply is_hash_len in Hx; lia|]. apply (Hu Hx HA). subst. eapply shift_last; [|exact Hq].
      intros ->. simpl in LC1. lia.
  Qed.
  Lemma split_children' A C e x :
    is_hash A \/ A = DefaultLeaf -> is_hash C \/ C = DefaultLeaf -> is_hash A \/ is_hash C ->
    (length e = 32 \/ e = DefaultLeaf) -> is_hash x \/ x = DefaultLeaf ->
    (x = DefaultLeaf -> C = DefaultLeaf -> hd x01 A <> x00) -> A ++ C = x ++ e -> A = x /\ C = e.
  Proof.
    intros HA HC Hor He Hx Hu Hq.
    pose proof (f_equal (@length byte) Hq) as Hl. rewrite !app_length in Hl.
    assert (LA : length A = 32 \/ length A = 1) by (destruct HA as [HA|HA]; [apply is_hash_len in HA; auto | subst; auto]).
    assert (LC : length C = 32 \/ length C = 1) by (destruct HC as [HC|HC]; [apply is_hash_len in HC; auto | subst; auto]).
    assert (Lx : length x = 32 \/ length x = 1) by (destruct Hx as [Hx|Hx]; [apply is_hash_len in Hx; auto | subst; auto]).
    assert (Le : length e = 32 \/ length e = 1) by (destruct He as [He|He]; [auto | subst; auto]).
    destruct (Nat.eq_dec (length A) (length x)) as [Hae|Hae]; [apply app_inj_len; assumption|]. exfalso.
    destruct LA as [LA|LA], Lx as [Lx|Lx]; try lia.
    - destruct Hx as [Hx|Hx]; [apply is_hash_len in Hx; lia|]. assert (LC1 : length C = 1) by lia. assert (Le32 : length e = 32) by lia.
      destruct HC as [HC|HC]; [apply is_hash_len in HC; lia|]. apply (Hu Hx HC). subst. eapply shift_hd; [|exact Hq].
      intros ->. simpl in LA. lia.
    - destruct HA as [HA|HA]; [apply is_hash_len in HA; lia|]. assert (LC1 : length C = 32) by lia. assert (Le1 : length e = 1) by lia.
      destruct He as [He|He]; [lia|]. destruct HC as [(sc & Gc & ->)|HC]; [|subst; simpl in LC1; lia].
      destruct Hx as [(sx & Gx & ->)|Hx]; [|subst; simpl in Lx; lia]. subst. revert Hq. apply Hcf; assumption.
  Qed.

  Lemma path_sound n : forall i h t ap key leaf,
    i + h = TrieHeight -> good h t -> legal_path ap -> n <= length ap -> length key = HashLength ->
    is_hash leaf \/ leaf = DefaultLeaf -> (leaf = DefaultLeaf -> unambiguous H h t) ->
    (forall s, In s (path_strings H ap i n key leaf) -> G s) ->
    verify_path H ap i n key leaf = Some (dflt (hash_of h t)) ->
    exists t', subtree n i key t = Some t' /\ good (h - n) t' /\ dflt (hash_of (h - n) t') = leaf /\
               (n = 0 \/ 1 <= h - n).
  Proof.
    induction n as [|n IH]; intros i h t ap key leaf Hih Hg Hap Hn Hk Hleaf Hua Hps Hv.
    - exists t. rewrite Nat.sub_0_r. cbn [verify_path] in Hv. injection Hv as ->. auto.
    - cbn [verify_path] in Hv. cbn [path_strings] in Hps.
      destruct (bit_is_set key i) as [b|] eqn:Hb; [|discriminate].
      destruct (verify_path H ap (S i) n key leaf) as [x|] eqn:Hx; [|discriminate].
      assert (Hbit : bit key i = b) by (unfold bit; rewrite Hb; reflexivity).
      set (e := nth n ap []) in *.
      assert (Le : length e = 32 \/ e = DefaultLeaf).
      { unfold legal_path in Hap. rewrite Forall_forall in Hap. rewrite <- HL. apply Hap. apply nth_In. lia. }
      assert (Hxh : is_hash x \/ x = DefaultLeaf /\ leaf = DefaultLeaf).
      { destruct n as [|n'].
        - cbn [verify_path] in Hx. injection Hx as <-. destruct Hleaf; auto.
        - left. cbn [verify_path path_strings] in Hx, Hps. destruct (bit_is_set key (S i)) as [b2|] eqn:Hb2; [|discriminate].
          destruct (verify_path H ap (S (S i)) n' key leaf) as [y|]; [|discriminate]. injection Hx as Hx.
          assert (Hbit2 : bit key (S i) = b2) by (unfold bit; rewrite Hb2; reflexivity).
          rewrite Hbit2 in Hps. destruct b2; subst x; eexists; (split; [|reflexivity]); apply Hps; simpl; auto. }
      assert (Lx : length x = 32 \/ x = DefaultLeaf).
      { destruct Hxh as [Hxh|[Hxh _]]; [left; apply is_hash_len; exact Hxh | auto]. }
      rewrite Hbit in Hps. injection Hv as Hv.
      set (str := if b then e ++ x else x ++ e).
      assert (Hstr : H str = dflt (hash_of h t)) by (unfold str; destruct b; exact Hv).
      assert (Gs : G str) by (apply Hps; simpl; auto).
      assert (Ls : length str <= 64).
      { assert (length e <= 32) by (destruct Le as [Le|Le]; [lia | rewrite Le; simpl; lia]).
        assert (length x <= 32) by (destruct Lx as [Lx|Lx]; [lia | rewrite Lx; simpl; lia]).
        unfold str. destruct b; rewrite app_length; lia. }
      destruct t as [|k v|l r].
      + exfalso. apply (f_equal (@length byte)) in Hstr. rewrite Hlen, HL in Hstr. discriminate.
      + exfalso. cbn [TrieSpec.hash_of] in Hstr. rewrite (Hdflt H Hlen) in Hstr.
        destruct Hg as [(_ & Lk & Lv) Hg]. apply (proj1 Hcf) in Hstr; [|exact Gs|apply Hg; simpl; auto].
        rewrite Hstr in Ls. unfold leaf_string in Ls. rewrite !app_length, Lk, Lv, HL in Ls. simpl in Ls. lia.
      + cbn [TrieSpec.hash_of] in Hstr. rewrite (Hdflt H Hlen) in Hstr.
        destruct (good_N H G _ _ _ Hg) as [Gl Gr].
        assert (Hinner : str = inner_string (hash_of (pred h) l) (hash_of (pred h) r)).
        { apply (proj1 Hcf); [exact Gs| |exact Hstr]. apply Hg. simpl. auto. }
        rewrite inner_string_dflt in Hinner.
        pose proof (wf_pos_N _ _ _ (proj1 Hg)) as Hh2.
        assert (Hor : l <> E \/ r <> E) by apply Hg.
        assert (DA : is_hash (dflt (hash_of (pred h) l)) \/ dflt (hash_of (pred h) l) = DefaultLeaf).
        { destruct (HG_dflt _ _ Gl) as [[_ ->]|(_ & s & Gs2 & -> & _)]; [auto|]. left. exists s. auto. }
        assert (DC : is_hash (dflt (hash_of (pred h) r)) \/ dflt (hash_of (pred h) r) = DefaultLeaf).
        { destruct (HG_dflt _ _ Gr) as [[_ ->]|(_ & s & Gs2 & -> & _)]; [auto|]. left. exists s. auto. }
        assert (Dor : is_hash (dflt (hash_of (pred h) l)) \/ is_hash (dflt (hash_of (pred h) r))).
        { destruct Hor as [Hl0|Hr0].
          - left. destruct (HG_dflt _ _ Gl) as [[Hq _]|(_ & s & Gs2 & -> & _)]; [contradiction|]. exists s. auto.
          - right. destruct (HG_dflt _ _ Gr) as [[Hq _]|(_ & s & Gs2 & -> & _)]; [contradiction|]. exists s. auto. }
        assert (Hchild : (if b then dflt (hash_of (pred h) r) else dflt (hash_of (pred h) l)) = x).
        { unfold str in Hinner. destruct b.
          - symmetry in Hinner. apply (split_children _ _ e x) in Hinner; try tauto.
            intros Hx1 Hx2. destruct Hxh as [Hxh|[_ Hld]].
            { apply is_hash_len in Hxh. rewrite Hx1 in Hxh. discriminate. }
            destruct (Hua Hld) as (Hu & _). destruct (HG_dflt _ _ Gr) as [[Hr0 Hd]|(_ & s & Gs2 & Hd & He)].
            + exfalso. destruct (HG_dflt _ _ Gl) as [[Hl0 _]|(_ & s & _ & Hd2 & _)]; [tauto|].
              rewrite Hd2 in Hx2. apply (f_equal (@length byte)) in Hx2. rewrite Hlen, HL in Hx2. discriminate.
            + rewrite Hd, <- He. apply Hu. destruct (HG_dflt _ _ Gl) as [[Hl0 _]|(_ & s2 & _ & Hd2 & _)]; [exact Hl0|].
              rewrite Hd2 in Hx2. apply (f_equal (@length byte)) in Hx2. rewrite Hlen, HL in Hx2. discriminate.
          - symmetry in Hinner. apply (split_children' _ _ e x) in Hinner; try tauto.
            intros Hx1 Hx2. destruct Hxh as [Hxh|[_ Hld]].
            { apply is_hash_len in Hxh. rewrite Hx1 in Hxh. discriminate. }
            destruct (Hua Hld) as (_ & Hu & _). destruct (HG_dflt _ _ Gl) as [[Hr0 Hd]|(_ & s & Gs2 & Hd & He)].
            + exfalso. destruct (HG_dflt _ _ Gr) as [[Hl0 _]|(_ & s & _ & Hd2 & _)]; [tauto|].
              rewrite Hd2 in Hx2. apply (f_equal (@length byte)) in Hx2. rewrite Hlen, HL in Hx2. discriminate.
            + rewrite Hd, <- He. apply Hu. destruct (HG_dflt _ _ Gr) as [[Hl0 _]|(_ & s2 & _ & Hd2 & _)]; [exact Hl0|].
              rewrite Hd2 in Hx2. apply (f_equal (@length byte)) in Hx2. rewrite Hlen, HL in Hx2. discriminate. }
        cbn [subtree]. rewrite Hbit.
        destruct (IH (S i) (pred h) (if b then r else l) ap key leaf) as (t' & Ht' & Hg' & Hd' & Hn'); auto.
        * lia.
        * destruct b; assumption.
        * lia.
        * intros Hld. destruct (Hua Hld) as (_ & _ & Ul & Ur). destruct b; assumption.
        * intros s Hs. apply Hps. simpl. auto.
        * rewrite Hx. f_equal. rewrite <- Hchild. destruct b; reflexivity.
        * exists t'. replace (h - S n) with (pred h - n) by lia. split; [exact Ht'|]. split; [exact Hg'|].
          split; [exact Hd'|]. right. destruct Hn' as [->|Hn']; lia.
  Qed.

  Lemma depth_byte_eq n : n < TrieHeight -> depth_byte n = byte_of_nat (TrieHeight - n).
  Proof.
    intros Hn. rewrite TH in *. unfold depth_byte, byte_of_nat.
    replace (Z.to_N ((256 - Z.of_nat n) mod 256)) with (N.of_nat (256 - n) mod 256)%N; [reflexivity|].
    apply N2Z.inj. rewrite N2Z.inj_mod by lia. rewrite Z2N.id by (apply Z.mod_pos_bound; lia).
    rewrite nat_N_Z. rewrite Nat2Z.inj_sub by lia. reflexivity.
  Qed.

  Definition top (m : kvmap) : Prop :=
    dom TrieHeight (keys m) /\ NoDup (keys m) /\ vals_ok m /\
    (forall s, In s (strings_of H TrieHeight (build TrieHeight m)) -> G s).

  Lemma top_good m : top m -> good TrieHeight (build TrieHeight m).
  Proof. intros (Hd & Hn & Hv & Hs). split; [apply build_wf; assumption | exact Hs]. Qed.

  Theorem inclusion_sound m ap key value :
    top m -> legal_path ap -> length key = HashLength -> length value = HashLength ->
    let leaf := H (key ++ value ++ [depth_byte (length ap)]) in
    G (key ++ value ++ [depth_byte (length ap)]) ->
    (forall s, In s (path_strings H ap 0 (length ap) key leaf) -> G s) ->
    verify_inclusion H (root_of H m) ap key value = Some true -> lookup m key = Some value.
  Proof.
    intros Hm Hap Hk Hv leaf Gleaf Hps. unfold verify_inclusion. fold leaf.
    destruct (verify_path H ap 0 (length ap) key leaf) as [x|] eqn:Hx; [|discriminate].
    intros Hq. injection Hq as Hq. apply beqb_eq in Hq.
    pose proof (top_good m Hm) as Hg. unfold root_of in Hq.
    destruct (tree_E_dec (build TrieHeight m)) as [He|Hne].
    { exfalso. rewrite He in Hq. simpl in Hq. 
      assert (Hl : length x = HashLength).
      { destruct (length ap) as [|n]; cbn [verify_path] in Hx; [injection Hx as <-; apply Hlen|].
        destruct (bit_is_set key 0) as [b|]; [|discriminate].
        destruct (verify_path H ap 1 n key leaf); [|discriminate]. injection Hx as <-. destruct b; apply Hlen. }
      rewrite <- Hq, HL in Hl. discriminate. }
    destruct (HG_dflt _ _ Hg) as [[He _]|(_ & s & Gs & Hd1 & Hd2)]; [contradiction|].
    destruct (path_sound (length ap) 0 TrieHeight (build TrieHeight m) ap key leaf) as (t' & Ht' & Hg' & Hd' & Hn'); auto.
    - left. exists (key ++ value ++ [depth_byte (length ap)]). auto.
    - intros Hl. apply (f_equal (@length byte)) in Hl. unfold leaf in Hl. rewrite Hlen, HL in Hl. discriminate.
    - rewrite Hx, <- Hq, Hd1, Hd2. reflexivity.
    - assert (Hlt : length ap < TrieHeight) by (destruct Hn' as [->|Hn']; rewrite TH in *; lia).
      destruct (HG_dflt _ _ Hg') as [[_ Hd]|(Hne' & s' & Gs' & Hd & Hd3)].
      { exfalso. rewrite Hd in Hd'. apply (f_equal (@length byte)) in Hd'. unfold leaf in Hd'. rewrite Hlen, HL in Hd'.
        discriminate. }
      destruct t' as [|k v|l r]; [congruence| |].
      + cbn [TrieSpec.hash_of] in Hd', Hd3. rewrite (Hdflt H Hlen) in Hd'. apply (proj1 Hcf) in Hd'; [|apply Hg'; simpl; auto|exact Gleaf].
        unfold leaf_string in Hd'. destruct Hg' as [(_ & Lk & Lv) _].
        apply app_inj_len in Hd' as [-> Hd']; [|congruence]. apply app_inj_len in Hd' as [-> _]; [|congruence].
        apply subtree_leaves in Ht'. destruct Hm as (Hdm & Hnd & _).
        apply In_lookup; [exact Hnd|]. eapply Permutation.Permutation_in; [apply (build_leaves TrieHeight); assumption | exact Ht'].
      + exfalso. cbn [TrieSpec.hash_of] in Hd'. rewrite (Hdflt H Hlen) in Hd'. apply (proj1 Hcf) in Hd'; [|apply Hg'; simpl; auto|exact Gleaf].
        pose proof (inner_string_length H Hlen (pred (TrieHeight - length ap)) l r) as Hl. rewrite Hd' in Hl.
        rewrite !app_length, Hk, Hv, HL in Hl. simpl in Hl. lia.
  Qed.

  (** The same for the leaf found on the path of another key, or an empty subtree. *)
  Lemma leaf_on_path m ap key value :
    top m -> legal_path ap -> length key = HashLength -> length value = HashLength ->
    let leaf := H (key ++ value ++ [depth_byte (length ap)]) in
    G (key ++ value ++ [depth_byte (length ap)]) ->
    (forall s, In s (path_strings H ap 0 (length ap) key leaf) -> G s) ->
    verify_inclusion H (root_of H m) ap key value = Some true ->
    subtree (length ap) 0 key (build TrieHeight m) = Some (L key value) /\ length ap < TrieHeight.
  Proof.
    intros Hm Hap Hk Hv leaf Gleaf Hps. unfold verify_inclusion. fold leaf.
    destruct (verify_path H ap 0 (length ap) key leaf) as [x|] eqn:Hx; [|discriminate].
    intros Hq. injection Hq as Hq. apply beqb_eq in Hq.
    pose proof (top_good m Hm) as Hg. unfold root_of in Hq.
    destruct (tree_E_dec (build TrieHeight m)) as [He|Hne].
    { exfalso. rewrite He in Hq. simpl in Hq. 
      assert (Hl : length x = HashLength).
      { destruct (length ap) as [|n]; cbn [verify_path] in Hx; [injection Hx as <-; apply Hlen|].
        destruct (bit_is_set key 0) as [b|]; [|discriminate].
        destruct (verify_path H ap 1 n key leaf); [|discriminate]. injection Hx as <-. destruct b; apply Hlen. }
      rewrite <- Hq, HL in Hl. discriminate. }
    destruct (HG_dflt _ _ Hg) as [[He _]|(_ & s & Gs & Hd1 & Hd2)]; [contradiction|].
    destruct (path_sound (length ap) 0 TrieHeight (build TrieHeight m) ap key leaf) as (t' & Ht' & Hg' & Hd' & Hn'); auto.
    - left. exists (key ++ value ++ [depth_byte (length ap)]). auto.
    - intros Hl. apply (f_equal (@length byte)) in Hl. unfold leaf in Hl. rewrite Hlen, HL in Hl. discriminate.
    - rewrite Hx, <- Hq, Hd1, Hd2. reflexivity.
    - assert (Hlt : length ap < TrieHeight) by (destruct Hn' as [->|Hn']; rewrite TH in *; lia).
      split; [|exact Hlt].
      destruct (HG_dflt _ _ Hg') as [[_ Hd]|(Hne' & s' & Gs' & Hd & Hd3)].
      { exfalso. rewrite Hd in Hd'. apply (f_equal (@length byte)) in Hd'. unfold leaf in Hd'. rewrite Hlen, HL in Hd'.
        discriminate. }
      destruct t' as [|k v|l r]; [congruence| |].
      + cbn [TrieSpec.hash_of] in Hd', Hd3. rewrite (Hdflt H Hlen) in Hd'. apply (proj1 Hcf) in Hd'; [|apply Hg'; simpl; auto|exact Gleaf].
        unfold leaf_string in Hd'. destruct Hg' as [(_ & Lk & Lv) _].
        apply app_inj_len in Hd' as [-> Hd']; [|congruence]. apply app_inj_len in Hd' as [-> _]; [|congruence]. exact Ht'.
      + exfalso. cbn [TrieSpec.hash_of] in Hd'. rewrite (Hdflt H Hlen) in Hd'. apply (proj1 Hcf) in Hd'; [|apply Hg'; simpl; auto|exact Gleaf].
        pose proof (inner_string_length H Hlen (pred (TrieHeight - length ap)) l r) as Hl. rewrite Hd' in Hl.
        rewrite !app_length, Hk, Hv, HL in Hl. simpl in Hl. lia.
  Qed.

  (** A key of the map lies in the subtree its bits lead to. *)
  Lemma subtree_build n : forall h m key t,
    dom h (keys m) -> NoDup (keys m) -> subtree n (TrieHeight - h) key (build h m) = Some t ->
    exists m', t = build (h - n) m' /\ (n = 0 \/ 1 <= h - n) /\ dom (h - n) (keys m') /\ NoDup (keys m') /\
               lookup m' key = lookup m key.
  Proof.
    induction n as [|n IH]; intros h m key t Hd Hn; cbn [subtree].
    - intros Hq. injection Hq as <-. exists m. rewrite Nat.sub_0_r. auto 6.
    - destruct (build h m) as [|k v|l r] eqn:Hb; try discriminate.
      assert (H2 : 2 <= length m) by (eapply build_N_len; exact Hb).
      pose proof (dom_two _ _ Hd Hn H2) as Hh. destruct h as [|h']; [lia|].
      rewrite build_S in Hb by exact H2. injection Hb as <- <-. intros Hq.
      pose proof Hd as ((_ & Hh2) & _).
      replace (S (TrieHeight - S h')) with (TrieHeight - h') in Hq by lia.
      assert (Hside : (if bit key (TrieHeight - S h') then build h' (side (TrieHeight - S h') true m)
                       else build h' (side (TrieHeight - S h') false m)) =
                      build h' (side (TrieHeight - S h') (bit key (TrieHeight - S h')) m))
        by (destruct (bit key (TrieHeight - S h')); reflexivity).
      rewrite Hside in Hq. apply IH in Hq.
      + destruct Hq as (m' & -> & Hn' & Hd' & Hnd' & Hlk). exists m'. change (S h' - S n) with (h' - n).
        split; [reflexivity|]. split; [destruct Hn' as [->|]; lia|]. split; [exact Hd'|]. split; [exact Hnd'|].
        rewrite Hlk. apply lookup_side. reflexivity.
      + apply dom_side1; [lia | exact Hd].
      + apply side_NoDup. exact Hn.
  Qed.

  Lemma subtree_agree n i k k' t : (forall j, i <= j < i + n -> bit k j = bit k' j) ->
    subtree n i k t = subtree n i k' t.
  Proof.
    revert i t. induction n as [|n IH]; intros i t Ha; cbn [subtree]; [reflexivity|].
    destruct t as [|? ?|l r]; try reflexivity. rewrite (Ha i) by lia. apply IH. intros j Hj. apply Ha. lia.
  Qed.

  Lemma same_prefix_spec key pk n : forall b, same_prefix key pk b n = Some true ->
    forall j, b <= j < b + n -> bit key j = bit pk j.
  Proof.
    induction n as [|n IH]; intros b Hs j Hj; [lia|]. cbn [same_prefix] in Hs.
    destruct (bit_is_set key b) as [x|] eqn:Hx; [|discriminate].
    destruct (bit_is_set pk b) as [y|] eqn:Hy; [|discriminate].
    destruct (Bool.eqb x y) eqn:He; [|discriminate]. apply eqb_prop in He.
    destruct (Nat.eq_dec j b) as [->|Hne].
    - unfold bit. rewrite Hx, Hy, He. reflexivity.
    - apply (IH (S b) Hs). lia.
  Qed.

  Theorem non_inclusion_sound m ap key value proofKey :
    top m -> unambiguous H TrieHeight (build TrieHeight m) -> legal_path ap -> length key = HashLength ->
    (proofKey = [] \/ length proofKey = HashLength /\ length value = HashLength /\ proofKey <> key) ->
    (proofKey <> [] -> G (proofKey ++ value ++ [depth_byte (length ap)]) /\
       forall s, In s (path_strings H ap 0 (length ap) proofKey (H (proofKey ++ value ++ [depth_byte (length ap)]))) -> G s) ->
    (proofKey = [] -> forall s, In s (path_strings H ap 0 (length ap) key DefaultLeaf) -> G s) ->
    verify_non_inclusion H (Some (root_of H m)) ap key value proofKey = Some true -> lookup m key = None.
  Proof.
    intros Hm Hua Hap Hk Hpk Hg1 Hg2 Hv. pose proof Hm as (Hdm & Hnd & Hvo & Hst).
    pose proof (top_good m Hm) as Hg.
    destruct proofKey as [|y pk'] eqn:Epk.
    - cbn [verify_non_inclusion] in Hv.
      destruct (verify_path H ap 0 (length ap) key DefaultLeaf) as [x|] eqn:Hx; [|discriminate].
      injection Hv as Hq. apply beqb_eq in Hq. unfold root_of in Hq.
      destruct (tree_E_dec (build TrieHeight m)) as [He|Hne].
      { apply build_E in He; auto. subst m. reflexivity. }
      destruct (HG_dflt _ _ Hg) as [[He _]|(_ & s & Gs & Hd1 & Hd2)]; [contradiction|].
      destruct (path_sound (length ap) 0 TrieHeight (build TrieHeight m) ap key DefaultLeaf) as (t' & Ht' & Hg' & Hd' & Hn'); auto.
      { rewrite Hx, <- Hq, Hd1, Hd2. reflexivity. }
      assert (Ht0 : t' = E).
      { destruct (HG_dflt _ _ Hg') as [[Ht0 _]|(_ & s' & _ & Hd & _)]; [exact Ht0|]. exfalso.
        rewrite Hd in Hd'. apply (f_equal (@length byte)) in Hd'. rewrite Hlen, HL in Hd'. discriminate. }
      subst t'. replace 0 with (TrieHeight - TrieHeight) in Ht' by lia.
      apply subtree_build in Ht' as (m' & He & _ & Hd3 & Hn3 & Hlk); auto.
      symmetry in He. apply build_E in He; auto. subst m'. rewrite <- Hlk. reflexivity.
    - rewrite <- Epk in *. assert (Hne : proofKey <> []) by (rewrite Epk; discriminate).
      destruct Hpk as [Hpk|(Hpl & Hvl & Hpn)]; [contradiction|].
      destruct (Hg1 Hne) as [Ga Gb].
      assert (Hvi : verify_inclusion H (root_of H m) ap proofKey value = Some true /\
                    same_prefix key proofKey 0 (length ap) = Some true).
      { rewrite Epk in Hv |- *. cbn [verify_non_inclusion] in Hv.
        destruct (verify_inclusion H (root_of H m) ap (y :: pk') value) as [[|]|]; [auto|discriminate|discriminate]. }
      destruct Hvi as [Hvi Hsp].
      destruct (leaf_on_path m ap proofKey value) as [Hsub Hlt]; auto.
      rewrite <- (subtree_agree (length ap) 0 key proofKey) in Hsub by (apply same_prefix_spec; exact Hsp).
      replace 0 with (TrieHeight - TrieHeight) in Hsub by lia.
      apply subtree_build in Hsub as (m' & He & _ & Hd3 & Hn3 & Hlk); auto.
      symmetry in He. apply build_leaf_inv in He. subst m'. rewrite <- Hlk. cbn [lookup].
      apply beqb_neq in Hpn. rewrite Hpn. reflexivity.
  Qed.
End Sound.
