(** Get and MerkleProof on a stored tree. *)
From Verif Require Import Base TrieModel TrieSpec BaseLemmas TrieMaps TrieHash TrieStore TrieBatch TrieUpdate.

Definition dflt (x : bytes) : bytes := match x with [] => DefaultLeaf | _ :: _ => x end.

Lemma inner_string_dflt l r : inner_string l r = dflt l ++ dflt r.
Proof. reflexivity. Qed.

Lemma lookup_side n b m k : bit k n = b -> lookup (side n b m) k = lookup m k.
Proof.
  intros Hb. unfold side. rewrite (lookup_filter_key (fun x => Bool.eqb (bit x n) b)), Hb, eqb_reflx. reflexivity.
Qed.

(** ** Paths *)
Lemma verify_path_app H ap e i n key leaf : n <= length ap ->
  verify_path H (ap ++ [e]) i n key leaf = verify_path H ap i n key leaf.
Proof.
  revert i. induction n as [|n IH]; intros i Hn; cbn [verify_path]; [reflexivity|].
  destruct (bit_is_set key i); [|reflexivity]. rewrite IH by lia.
  rewrite app_nth1 by lia. reflexivity.
Qed.
Lemma verify_path_snoc H ap e i key leaf :
  verify_path H (ap ++ [e]) i (length (ap ++ [e])) key leaf =
  match bit_is_set key i with
  | None => None
  | Some b => match verify_path H ap (S i) (length ap) key leaf with
              | None => None
              | Some x => Some (if b then H (e ++ x) else H (x ++ e))
              end
  end.
Proof.
  rewrite app_length. cbn [length]. rewrite Nat.add_1_r. cbn [verify_path].
  rewrite verify_path_app by lia. rewrite app_nth2, Nat.sub_diag by lia. reflexivity.
Qed.

Section Read.
  Variable H : bytes -> bytes.
  Hypothesis Hlen : forall x, length (H x) = HashLength.
  Variable limit : nat.
  Variable G : bytes -> Prop.
  Hypothesis Hcf : collision_free H G.

  Notation hash_of := (hash_of H).
  Notation good := (good H G).
  Notation node := (node H).
  Notation stored := (stored H).
  Notation live_ok := (live_ok H G).
  Notation rootlike := (rootlike H).
  Notation placed := (placed H).
  Notation verify_path := (verify_path H).

  Definition same_store (s s' : cdb) : Prop :=
    updated s' = updated s /\ removed s' = removed s /\ store s' = store s.

  Definition readable (h : nat) (m : kvmap) : Prop :=
    dom h (keys m) /\ NoDup (keys m) /\ good h (build h m).

  Lemma readable_side h' b m : 2 <= length m -> readable (S h') m ->
    readable h' (side (TrieHeight - S h') b m).
  Proof.
    intros H2 (Hd & Hn & Hg). pose proof (dom_two _ _ Hd Hn H2) as Hh.
    split; [apply dom_side1; [lia | exact Hd]|]. split; [apply side_NoDup; exact Hn|].
    rewrite build_S in Hg by exact H2. apply (good_N H G) in Hg. destruct b; apply Hg.
  Qed.

  Lemma stored_same s s' h t : same_store s s' -> stored s h t -> stored s' h t.
  Proof.
    intros (Hu & _ & Hs). apply stored_frame. intros x _. apply pend_same; [exact Hs | rewrite Hu; reflexivity].
  Qed.
  Lemma same_trans s1 s2 s3 : same_store s1 s2 -> same_store s2 s3 -> same_store s1 s3.
  Proof. intros (A & B & C) (D & F & I0). split; [congruence|]. split; congruence. Qed.

  (** The position of a child, for the recursive calls. *)
  Lemma placed_l h' ni t nb : length nb = 31 -> (ni + 2) * 2 ^ S (h' mod 4) <= 32 ->
    slot (2 * ni + 1) nb = node h' t -> desc H (h' mod 4) (2 * ni + 1) h' t nb -> placed h' t nb (2 * ni + 1).
  Proof.
    intros Hl Hb Hs Hd Hm. split; [lia|]. split; [exact Hl|]. split; [apply child_l; exact Hb|]. auto.
  Qed.
  Lemma placed_r h' ni t nb : length nb = 31 -> (ni + 2) * 2 ^ S (h' mod 4) <= 32 ->
    slot (2 * ni + 2) nb = node h' t -> desc H (h' mod 4) (2 * ni + 2) h' t nb -> placed h' t nb (2 * ni + 2).
  Proof.
    intros Hl Hb Hs Hd Hm. split; [lia|]. split; [exact Hl|]. split; [apply child_r; exact Hb|]. auto.
  Qed.

  Lemma leaf_slots h ni nb k v n : wf h (L k v) -> desc H (S n) ni h (L k v) nb ->
    firstn HashLength (slot (2 * ni + 1) nb) = k /\ firstn HashLength (slot (2 * ni + 2) nb) = v.
  Proof.
    intros (_ & Lk & Lv) ((-> & ->) & _). split; apply firstn_app_exact; assumption.
  Qed.

  Theorem get_ok h : forall m key root b i s,
    readable h m -> rootlike h (build h m) root -> placed h (build h m) b i ->
    stored s h (build h m) -> live_ok s ->
    runs (get limit h root key b i) s (fun v s' =>
      v = match lookup m key with Some v => v | None => [] end /\ live_ok s' /\ same_store s s').
  Proof.
    induction h as [|h' IH]; intros m key root b i s Hrd Hr Hpl Hst Hl.
    { destruct Hrd as (((Hh & _) & _) & _). lia. }
    set (h := S h') in *. pose proof Hrd as (Hd & Hn & Hg).
    destruct root as [|y root'] eqn:Hroot.
    { pose proof (proj1 (rootlike_nil H Hlen _ _ _ Hr) eq_refl) as He. apply build_E in He; auto. subst m.
      apply runs_ret. split; [reflexivity|]. split; [exact Hl|]. repeat split. }
    rewrite <- Hroot in *. 
    assert (Hgo : get limit h root key b i =
      ('(nb, ni, l, r, isShortcut) <- load_children limit root h i b ;;
        if isShortcut : bool then
          ret (if beqb (firstn HashLength l) key then firstn HashLength r else [])
        else
          if bit key (TrieHeight - h) then get limit h' r key nb (2 * ni + 2)
          else get limit h' l key nb (2 * ni + 1))).
    { rewrite Hroot. reflexivity. }
    rewrite Hgo. clear Hgo. apply runs_bind.
    eapply runs_mono; [|apply (load_children_ok H Hlen limit G Hcf h' (build h m) root i b s); auto;
                        intros Hm; apply Hpl; exact Hm].
    cbv beta. intros [[[[nb ni] l] r] sc] s1
      (Hlb & Hbd & Hni & Hsame & Hds & -> & -> & -> & Hl1 & Hu1 & Hrm1 & Hs1). fold h in Hni, Hsame, Hds.
    assert (Hss : same_store s s1) by (split; auto).
    destruct (is_leaf (build h m)) eqn:Hlf.
    - destruct (build h m) as [|k v|? ?] eqn:Hbm; try discriminate.
      pose proof (build_leaf_inv _ _ _ _ Hbm) as ->.
      destruct (leaf_slots _ _ _ _ _ _ (proj1 Hg) Hds) as [-> ->]. apply runs_ret. cbn [lookup].
      split; [destruct (beqb k key); reflexivity|]. auto.
    - assert (H2 : 2 <= length m).
      { destruct m as [|[k v] [|kv2 m2]]; [|discriminate|simpl; lia].
        apply (rootlike_nil H Hlen) in Hr. destruct Hr as [_ Hr]. rewrite Hr in Hroot by reflexivity. discriminate. }
      destruct (desc_children H _ _ _ _ _ Hlf Hds) as (Sl & Sr & Dl & Dr).
      assert (Hbuild : build h m = N (build h' (side (TrieHeight - h) false m)) (build h' (side (TrieHeight - h) true m)))
        by (apply build_S; exact H2).
      rewrite Hbuild in Sl, Sr, Dl, Dr. cbn [ltree rtree] in *.
      assert (Hst1 : stored s1 h (build h m)) by (eapply stored_same; eauto).
      rewrite Hbuild in Hst1. destruct Hst1 as (_ & StL & StR). change (pred h) with h' in StL, StR.
      destruct (bit key (TrieHeight - h)) eqn:Hbit.
      + rewrite <- (lookup_side _ _ m key Hbit). rewrite Sr.
        eapply runs_mono; [|apply (IH (side (TrieHeight - h) true m)); auto].
        * cbv beta. intros v s' (A & B & C). split; [exact A|]. split; [exact B|]. eapply same_trans; eauto.
        * apply readable_side; auto.
        * left. reflexivity.
        * apply placed_r; auto.
      + rewrite <- (lookup_side _ _ m key Hbit). rewrite Sl.
        eapply runs_mono; [|apply (IH (side (TrieHeight - h) false m)); auto].
        * cbv beta. intros v s' (A & B & C). split; [exact A|]. split; [exact B|]. eapply same_trans; eauto.
        * apply readable_side; auto.
        * left. reflexivity.
        * apply placed_l; auto.
  Qed.

  (** What a correct proof for [key] in the tree of [m] at height [h] looks like. *)
  Definition proof_ok (h : nat) (m : kvmap) (key : bytes) (r : list bytes * bool * bytes * bytes) : Prop :=
    let '(ap, inc, pk, pv) := r in
    let n := length ap in
    n < h /\ Forall (fun e => length e = HashLength \/ e = DefaultLeaf) ap /\
    match lookup m key with
    | Some v =>
        inc = true /\ pk = [] /\ pv = v /\
        verify_path ap (TrieHeight - h) n key (H (leaf_string key v (h - n))) = Some (hash_of h (build h m))
    | None =>
        inc = false /\
        ((pk = [] /\ pv = [] /\
          verify_path ap (TrieHeight - h) n key DefaultLeaf = Some (dflt (hash_of h (build h m)))) \/
         (In (pk, pv) m /\ (forall j, TrieHeight - h <= j < TrieHeight - h + n -> bit key j = bit pk j) /\
          verify_path ap (TrieHeight - h) n pk (H (leaf_string pk pv (h - n))) = Some (hash_of h (build h m))))
    end.

  Lemma or_default_node h t : or_default (node h t) = dflt (hash_of h t).
  Proof.
    destruct (tree_E_dec t) as [->|Hne]; [reflexivity|].
    destruct (node_cons H h t Hne) as (y & ys & Hnd). unfold or_default. rewrite Hnd, <- Hnd, (node_firstn H Hlen).
    unfold dflt. destruct (hash_of h t) eqn:Hh; [|reflexivity]. apply (hash_nil H Hlen) in Hh. contradiction.
  Qed.

  Lemma dflt_len h t : length (dflt (hash_of h t)) = HashLength \/ dflt (hash_of h t) = DefaultLeaf.
  Proof.
    destruct (tree_E_dec t) as [->|Hne]; [right; reflexivity|]. left.
    pose proof (hash_length H Hlen h t Hne) as Hl. unfold dflt.
    destruct (hash_of h t); [rewrite HL in Hl; discriminate | exact Hl].
  Qed.

  Lemma wf_bit h k : length k = HashLength -> 1 <= h <= TrieHeight -> bit_is_set k (TrieHeight - h) = Some (bit k (TrieHeight - h)).
  Proof. intros Hk Hh. apply bit_is_set_some. rewrite Hk, HL. rewrite TH in *. lia. Qed.

  Lemma Hdflt x : dflt (H x) = H x.
  Proof. unfold dflt. destruct (H x) eqn:Hq; [|reflexivity]. pose proof (Hlen x) as Hl. rewrite Hq, HL in Hl. discriminate. Qed.

  (** One more level on top of a proof for a child. *)
  Lemma proof_step h' m key b ap inc pk pv :
    let h := S h' in let n := TrieHeight - h in
    2 <= length m -> readable h m -> length key = HashLength -> bit key n = b ->
    proof_ok h' (side n b m) key (ap, inc, pk, pv) ->
    proof_ok h m key (ap ++ [dflt (hash_of h' (build h' (side n (negb b) m)))], inc, pk, pv).
  Proof.
    intros h n H2 (Hd & Hn & Hg) Hk Hb (Hlt & Hf & Hm). 
    pose proof (dom_two _ _ Hd Hn H2) as Hh. pose proof Hd as ((_ & Hh2) & Hsh & _ & Hle).
    set (e := dflt (hash_of h' (build h' (side n (negb b) m)))).
    assert (Hi : S n = TrieHeight - h') by (unfold n, h in *; lia).
    assert (Hbs : forall k, length k = HashLength -> bit_is_set k n = Some (bit k n)).
    { intros k Hkl. apply wf_bit; [exact Hkl | unfold h in *; lia]. }
    assert (Hbuild : build h m = N (build h' (side n false m)) (build h' (side n true m))) by (apply build_S; exact H2).
    assert (Hash : forall x, x = dflt (hash_of h' (build h' (side n b m))) ->
              (if b then H (e ++ x) else H (x ++ e)) = hash_of h (build h m)).
    { intros x ->. rewrite Hbuild. unfold h. cbn [TrieSpec.hash_of pred]. rewrite inner_string_dflt. unfold e.
      destruct b; reflexivity. }
    assert (Hside : forall k, lookup (side n b m) k = if Bool.eqb (bit k n) b then lookup m k else None).
    { intros k. unfold side. apply (lookup_filter_key (fun x => Bool.eqb (bit x n) b)). }
    rewrite Hside, Hb, eqb_reflx in Hm.
    assert (Hnz : forall h0 t0 x, H x = hash_of h0 t0 -> dflt (hash_of h0 t0) = hash_of h0 t0).
    { intros h0 t0 x <-. apply Hdflt. }
    unfold proof_ok. split; [rewrite app_length; cbn [length]; unfold h; lia|].
    split; [apply Forall_app; split; [exact Hf|]; constructor; [apply dflt_len | constructor]|].
    cbv zeta. change (TrieHeight - h) with n.
    assert (Hsub : h - length (ap ++ [e]) = h' - length ap) by (rewrite app_length; cbn [length]; unfold h; lia).
    destruct (lookup m key) as [v|] eqn:Hlk; rewrite Hsub, ?verify_path_snoc, ?Hi.
    - destruct Hm as (-> & -> & -> & Hv). do 3 (split; [reflexivity|]).
      rewrite (Hbs key Hk), Hv, Hb. f_equal. apply Hash. symmetry.
      destruct (build h' (side n b m)) eqn:Hbd; [|apply Hdflt|apply Hdflt].
      exfalso. apply build_E in Hbd; [| |apply side_NoDup; exact Hn].
      + assert (Hx : lookup (side n b m) key = Some v) by (rewrite Hside, Hb, eqb_reflx; exact Hlk).
        rewrite Hbd in Hx. discriminate.
      + apply dom_side1; [unfold h in Hh; lia | exact Hd].
    - destruct Hm as (-> & [(-> & -> & Hv)|(Hin & Hag & Hv)]); (split; [reflexivity|]).
      + left. do 2 (split; [reflexivity|]). rewrite (Hbs key Hk), Hv, Hb.
        assert (Hne : dflt (hash_of h (build h m)) = hash_of h (build h m)) by (rewrite Hbuild; apply Hdflt).
        rewrite Hne. f_equal. apply Hash. reflexivity.
      + right. apply in_side in Hin as [Hin Hpb]. split; [exact Hin|]. split.
        * intros j Hj. destruct (Nat.eq_dec j n) as [->|Hjn]; [congruence|]. rewrite app_length in Hj. cbn [length] in Hj. apply Hag. lia.
        * assert (Hpl : length pk = HashLength) by (apply Hle; apply in_keys in Hin; exact Hin).
          rewrite (Hbs pk Hpl), Hv, Hpb. f_equal. apply Hash. symmetry.
          destruct (build h' (side n b m)) eqn:Hbd; [|apply Hdflt|apply Hdflt].
          exfalso. apply build_E in Hbd; [| |apply side_NoDup; exact Hn].
          -- assert (Hx : In (pk, pv) (side n b m)) by (apply in_side; auto). rewrite Hbd in Hx. destruct Hx.
          -- apply dom_side1; [unfold h in Hh; lia | exact Hd].
  Qed.

  Theorem merkle_ok h : forall m key root b i s,
    readable h m -> length key = HashLength -> rootlike h (build h m) root -> placed h (build h m) b i ->
    stored s h (build h m) -> live_ok s ->
    runs (merkle_proof limit h root key b i) s (fun r s' =>
      proof_ok h m key r /\ live_ok s' /\ same_store s s').
  Proof.
    induction h as [|h' IH]; intros m key root b i s Hrd Hkey Hr Hpl Hst Hl.
    { destruct Hrd as (((Hh & _) & _) & _). lia. }
    set (h := S h') in *. pose proof Hrd as (Hd & Hn & Hg).
    destruct root as [|y root'] eqn:Hroot.
    { pose proof (proj1 (rootlike_nil H Hlen _ _ _ Hr) eq_refl) as He. apply build_E in He; auto. subst m.
      apply runs_ret. split; [|split; [exact Hl | repeat split]].
      split; [unfold h; simpl; lia|]. split; [constructor|]. cbn [lookup]. split; [reflexivity|]. left.
      do 2 (split; [reflexivity|]). reflexivity. }
    rewrite <- Hroot in *.
    set (leaf := fun l r : bytes =>
          if beqb (firstn HashLength l) key then ret ([], true, [], firstn HashLength r)
          else ret ([], false, firstn HashLength l, firstn HashLength r) : M (list bytes * bool * bytes * bytes)).
    assert (Hgo : merkle_proof limit h root key b i =
      ('(nb, ni, l, r, isShortcut) <- load_children limit root h i b ;;
            if isShortcut : bool then leaf l r
            else if bit key (TrieHeight - h) then
              '(ap, inc, pk, pv) <- merkle_proof limit h' r key nb (2 * ni + 2) ;;
              ret (ap ++ [or_default l], inc, pk, pv)
            else
              '(ap, inc, pk, pv) <- merkle_proof limit h' l key nb (2 * ni + 1) ;;
              ret (ap ++ [or_default r], inc, pk, pv))).
    { rewrite Hroot. reflexivity. }
    rewrite Hgo. clear Hgo. apply runs_bind.
    eapply runs_mono; [|apply (load_children_ok H Hlen limit G Hcf h' (build h m) root i b s); auto;
                        intros Hm; apply Hpl; exact Hm].
    cbv beta. intros [[[[nb ni] l] r] sc] s1
      (Hlb & Hbd & Hni & Hsame & Hds & -> & -> & -> & Hl1 & Hu1 & Hrm1 & Hs1). fold h in Hni, Hsame, Hds.
    assert (Hss : same_store s s1) by (split; auto).
    destruct (is_leaf (build h m)) eqn:Hlf.
    - destruct (build h m) as [|k v|? ?] eqn:Hbm; try discriminate.
      pose proof (build_leaf_inv _ _ _ _ Hbm) as ->. unfold leaf.
      destruct (leaf_slots _ _ _ _ _ _ (proj1 Hg) Hds) as [-> ->].
      destruct (beqb_spec k key) as [->|Hne]; apply runs_ret; (split; [|auto]);
      (split; [unfold h; simpl; lia|]); (split; [constructor|]); cbn [lookup length].
      + rewrite beqb_refl. do 3 (split; [reflexivity|]). rewrite Hbm, Nat.sub_0_r. reflexivity.
      + apply beqb_neq in Hne as Hneb. rewrite Hneb. split; [reflexivity|]. right.
        split; [simpl; auto|]. split; [intros; lia|]. rewrite Hbm, Nat.sub_0_r. reflexivity.
    - assert (H2 : 2 <= length m).
      { destruct m as [|[k v] [|kv2 m2]]; [|discriminate|simpl; lia].
        apply (rootlike_nil H Hlen) in Hr. destruct Hr as [_ Hr]. rewrite Hr in Hroot by reflexivity. discriminate. }
      destruct (desc_children H _ _ _ _ _ Hlf Hds) as (Sl & Sr & Dl & Dr).
      assert (Hbuild : build h m = N (build h' (side (TrieHeight - h) false m)) (build h' (side (TrieHeight - h) true m)))
        by (apply build_S; exact H2).
      rewrite Hbuild in Sl, Sr, Dl, Dr. cbn [ltree rtree] in *.
      assert (Hst1 : stored s1 h (build h m)) by (eapply stored_same; eauto).
      rewrite Hbuild in Hst1. destruct Hst1 as (_ & StL & StR). change (pred h) with h' in StL, StR.
      rewrite Sl, Sr, !or_default_node.
      destruct (bit key (TrieHeight - h)) eqn:Hbit; apply runs_bind.
      + eapply runs_mono; [|apply (IH (side (TrieHeight - h) true m)); auto].
        * cbv beta. intros [[[ap inc] pk] pv] s' (A & B & C). apply runs_ret.
          split; [|split; [exact B | eapply same_trans; eauto]].
          apply (proof_step h' m key true); auto.
        * apply readable_side; auto.
        * left. reflexivity.
        * apply placed_r; auto.
      + eapply runs_mono; [|apply (IH (side (TrieHeight - h) false m)); auto].
        * cbv beta. intros [[[ap inc] pk] pv] s' (A & B & C). apply runs_ret.
          split; [|split; [exact B | eapply same_trans; eauto]].
          apply (proof_step h' m key false); auto.
        * apply readable_side; auto.
        * left. reflexivity.
        * apply placed_l; auto.
  Qed.
End Read.
