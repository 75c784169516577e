(** The verifier of the policy log against RFC 6962. *)
From Verif Require Import Base BaseLemmas LogTreeModel LogTreeSpec LogTreeProofs.

Section Results.
  Variable hash : bytes -> bytes.
  Hypothesis Hlen : forall x, length (hash x) = hash_size.
  Notation node := (hash_children hash).

  (** * The path of RFC 6962 *)
  Lemma path_zero f : forall l, path hash f l 0 0 = [].
  Proof. induction f as [|f IH]; intros l; [reflexivity|]. cbn [path]. cbn [Nat.odd Nat.even negb Nat.ltb Nat.leb app]. exact (IH _). Qed.
  Lemma path_fuel g : forall f (l : list bytes) m last, last < 2 ^ g -> m <= last -> g <= f -> path hash f l m last = path hash g l m last.
  Proof.
    induction g as [|g IH]; intros f l m last Hl Hm Hg.
    - change (2 ^ 0) with 1 in Hl. replace m with 0 by lia. replace last with 0 by lia. apply path_zero.
    - destruct f as [|f]; [lia|]. cbn [path]. f_equal. apply IH; [apply half_lt, Hl|apply half_le, Hm|lia].
  Qed.
  Lemma path_split f : forall (l1 l2 : list bytes) m last, length l1 = 2 ^ f -> 0 < length l2 <= 2 ^ f -> S last = length l1 + length l2 -> m <= last ->
    path hash (S f) (l1 ++ l2) m last =
    if m <? 2 ^ f then path hash f l1 m (2 ^ f - 1) ++ [root hash f l2] else path hash f l2 (m - 2 ^ f) (length l2 - 1) ++ [root hash f l1].
  Proof.
    induction f as [|f IH]; intros l1 l2 m last L1 L2 HL Hm.
    - change (2 ^ 0) with 1 in *. destruct l1 as [|a [|? ?]]; cbn in L1; try lia. destruct l2 as [|b [|? ?]]; cbn in L2; try lia.
      cbn in HL. assert (last = 1) by lia. subst last. destruct m as [|[|m]]; [reflexivity|reflexivity|lia].
    - assert (P : 0 < 2 ^ f) by (apply Nat.neq_0_lt_0, Nat.pow_nonzero; lia).
      assert (Ev : Nat.even (length l1) = true) by (rewrite L1; apply Nat.even_spec; exists (2 ^ f); reflexivity).
      assert (L1' : length (pairup hash l1) = 2 ^ f).
      { rewrite pairup_length, L1. cbn [Nat.pow]. symmetry. apply (Nat.div_unique _ 2 _ 1); lia. }
      assert (L2' : length (pairup hash l2) = S ((length l2 - 1) / 2)) by (apply pairup_last; lia).
      assert (B : (length l2 - 1) / 2 < 2 ^ f) by (apply Nat.div_lt_upper_bound; cbn [Nat.pow] in L2; lia).
      assert (HL' : S (last / 2) = length (pairup hash l1) + length (pairup hash l2)).
      { rewrite L1', L2'. cbn [Nat.pow] in L1. replace last with (length l2 - 1 + 2 ^ f * 2) by lia. rewrite Nat.div_add by lia. lia. }
      change (path hash (S (S f)) (l1 ++ l2) m last) with
        ((if Nat.odd m then [nth (m - 1) (l1 ++ l2) []] else if m <? last then [nth (m + 1) (l1 ++ l2) []] else []) ++
         path hash (S f) (pairup hash (l1 ++ l2)) (m / 2) (last / 2)).
      rewrite pairup_app by exact Ev. rewrite (IH (pairup hash l1) (pairup hash l2) (m / 2) (last / 2) L1' ltac:(lia) HL' (half_le _ _ Hm)).
      destruct (m <? 2 ^ S f) eqn:C; [apply Nat.ltb_lt in C|apply Nat.ltb_ge in C].
      + assert (C' : m / 2 < 2 ^ f) by (apply half_lt, C). rewrite (proj2 (Nat.ltb_lt _ _) C').
        cbn [path root]. replace ((2 ^ S f - 1) / 2) with (2 ^ f - 1) by (cbn [Nat.pow]; apply (Nat.div_unique _ 2 _ 1); lia).
        rewrite app_assoc. f_equal. f_equal. destruct (Nat.odd m) eqn:O.
        * destruct (odd_half m O) as (k & -> & _). rewrite app_nth1 by lia. reflexivity.
        * destruct (even_half m O) as (k & -> & _). cbn [Nat.pow] in *. rewrite (proj2 (Nat.ltb_lt (2 * k) last)) by lia.
          rewrite (proj2 (Nat.ltb_lt (2 * k) _)) by lia. rewrite app_nth1 by lia. reflexivity.
      + assert (E : exists j, m = j + 2 * 2 ^ f) by (exists (m - 2 * 2 ^ f); cbn [Nat.pow] in C; lia). destruct E as [j ->].
        replace (j + 2 * 2 ^ f - 2 ^ S f) with j by (cbn [Nat.pow]; lia).
        assert (D : (j + 2 * 2 ^ f) / 2 = j / 2 + 2 ^ f) by (replace (2 * 2 ^ f) with (2 ^ f * 2) by lia; apply Nat.div_add; lia).
        rewrite D. rewrite (proj2 (Nat.ltb_ge (j / 2 + 2 ^ f) (2 ^ f))) by lia. replace (j / 2 + 2 ^ f - 2 ^ f) with (j / 2) by lia.
        rewrite L2'. replace (S ((length l2 - 1) / 2) - 1) with ((length l2 - 1) / 2) by lia. cbn [path root].
        rewrite app_assoc. f_equal. f_equal. rewrite Nat.odd_add_mul_2. cbn [Nat.pow] in *. destruct (Nat.odd j) eqn:O.
        * destruct (odd_half j O) as (k & -> & _). rewrite app_nth2 by lia. f_equal. f_equal. lia.
        * destruct (j + 2 * 2 ^ f <? last) eqn:X; [apply Nat.ltb_lt in X|apply Nat.ltb_ge in X].
          -- rewrite (proj2 (Nat.ltb_lt j _)) by lia. rewrite app_nth2 by lia. f_equal. f_equal. lia.
          -- rewrite (proj2 (Nat.ltb_ge j _)) by lia. reflexivity.
  Qed.

  (** Splitting a list of at least two leaves as RFC 6962 does *)
  Lemma split_at (l : list bytes) : 2 <= length l -> let k := 2 ^ Nat.log2 (length l - 1) in
    exists g, k = 2 ^ g /\ 0 < 2 ^ g /\ 2 ^ g < length l <= 2 ^ S g /\ length (firstn k l) = 2 ^ g /\ length (skipn k l) = length l - 2 ^ g.
  Proof.
    intros L2 k. exists (Nat.log2 (length l - 1)). assert (G := Nat.log2_spec (length l - 1)). destruct G as [G1 G2]; [lia|].
    fold k in G1. subst k. set (g := Nat.log2 (length l - 1)) in *.
    assert (P : 0 < 2 ^ g) by (apply Nat.neq_0_lt_0, Nat.pow_nonzero; lia).
    repeat split; try lia.
    - apply firstn_length_le. lia.
    - apply skipn_length.
  Qed.
  Lemma pow_lt_log g f n : 2 ^ g < n -> n <= 2 ^ f -> g < f.
  Proof. intros H1 H2. apply (Nat.pow_lt_mono_r_iff 2); lia. Qed.

  Lemma rfc_path_eq fuel : forall (l : list bytes) m f, length l <= fuel -> length l <= 2 ^ f -> m < length l ->
    rfc_path hash fuel m l = path hash f l m (length l - 1).
  Proof.
    induction fuel as [|fuel IH]; intros l m f Hl Hf Hm; [lia|]. cbn [rfc_path]. destruct (length l <=? 1) eqn:C.
    - apply Nat.leb_le in C. replace m with 0 by lia. replace (length l - 1) with 0 by lia. symmetry. apply path_zero.
    - apply Nat.leb_gt in C. destruct (split_at l ltac:(lia)) as (g & -> & P & G & L1 & L2).
      assert (Gf : S g <= f) by (apply (pow_lt_log g f (length l)); lia). cbn [Nat.pow] in G.
      rewrite (path_fuel (S g) f) by (cbn [Nat.pow]; lia).
      replace (path hash (S g) l m (length l - 1)) with (path hash (S g) (firstn (2 ^ g) l ++ skipn (2 ^ g) l) m (length l - 1)) by (rewrite firstn_skipn; reflexivity).
      rewrite path_split; [|exact L1|lia|rewrite L1; lia|lia].
      rewrite !tree_hash_root with (f := g) by lia.
      destruct (m <? 2 ^ g) eqn:E; [apply Nat.ltb_lt in E|apply Nat.ltb_ge in E].
      + rewrite (IH _ m g) by lia. rewrite L1. reflexivity.
      + rewrite (IH _ (m - 2 ^ g) g) by lia. reflexivity.
  Qed.

  (** * The consistency proof of RFC 6962 *)
  Lemma up_app s : forall (l1 l2 : list bytes) c, length l1 = c * 2 ^ s -> up hash s (l1 ++ l2) = up hash s l1 ++ up hash s l2.
  Proof.
    induction s as [|s IH]; intros l1 l2 c L; [reflexivity|]. cbn [up]. cbn [Nat.pow] in L.
    rewrite pairup_app by (rewrite L; apply Nat.even_spec; exists (c * 2 ^ s); lia).
    apply (IH _ _ c). rewrite pairup_length, L. symmetry. apply (Nat.div_unique _ 2 _ 1); lia.
  Qed.
  Lemma up_length_pow s c : forall (l : list bytes), 0 < c -> length l = c * 2 ^ s -> length (up hash s l) = c.
  Proof.
    intros l Hc L. assert (P : 0 < 2 ^ s) by (apply Nat.neq_0_lt_0, Nat.pow_nonzero; lia).
    rewrite (up_last hash s l (c * 2 ^ s - 1)).
    - replace ((c * 2 ^ s - 1) / 2 ^ s) with (c - 1); [lia|]. apply (Nat.div_unique _ _ _ (2 ^ s - 1)); [lia|].
      destruct c as [|c]; [lia|]. cbn [Nat.mul]. replace (S c - 1) with c by lia. lia.
    - destruct c as [|c]; [lia|]. cbn [Nat.mul] in *. lia.
  Qed.
  Lemma root_up' s g (l : list bytes) : s <= g -> root hash (g - s) (up hash s l) = root hash g l.
  Proof. intros H. rewrite <- root_up. f_equal. lia. Qed.
  Lemma up_one s (l : list bytes) : length l = 2 ^ s -> up hash s l = [root hash s l].
  Proof.
    intros L. assert (U := up_length_pow s 1 l ltac:(lia) ltac:(lia)). rewrite <- (root_up' s s) by lia. rewrite Nat.sub_diag.
    destruct (up hash s l) as [|a [|? ?]]; try discriminate. reflexivity.
  Qed.

  Lemma rfc_subproof_eq fuel : forall (l : list bytes) f q s b, length l <= fuel -> length l <= 2 ^ f -> Nat.odd q = true ->
    (q * 2 ^ s < length l \/ (q * 2 ^ s = length l /\ q = 1)) ->
    rfc_subproof hash fuel (q * 2 ^ s) l b =
    (if b && (q =? 1) then [] else [nth (q - 1) (up hash s l) []]) ++ path hash (f - s) (up hash s l) (q - 1) ((length l - 1) / 2 ^ s).
  Proof.
    induction fuel as [|fuel IH]; intros l f q s b Hl Hf O Hm.
    - assert (P : 0 < 2 ^ s) by (apply Nat.neq_0_lt_0, Nat.pow_nonzero; lia). destruct q; [discriminate|]. cbn [Nat.mul] in Hm. lia.
    - assert (P : 0 < 2 ^ s) by (apply Nat.neq_0_lt_0, Nat.pow_nonzero; lia).
      assert (Q0 : 0 < q) by (destruct q; [discriminate|lia]).
      cbn [rfc_subproof]. destruct (q * 2 ^ s =? length l) eqn:C; [apply Nat.eqb_eq in C|apply Nat.eqb_neq in C].
      + destruct Hm as [Hm|[_ ->]]; [lia|]. rewrite Nat.mul_1_l in C. rewrite (up_one s l) by lia.
        rewrite <- C, Nat.div_small by lia. change (1 - 1) with 0. rewrite path_zero, app_nil_r. change (1 =? 1) with true. rewrite andb_true_r.
        change (nth 0 [root hash s l] []) with (root hash s l). rewrite <- (tree_hash_root hash (S fuel) l s) by lia. reflexivity.
      + destruct Hm as [Hm|[Hm _]]; [|contradiction].
        assert (Q1 : 1 * 2 ^ s <= q * 2 ^ s) by (apply Nat.mul_le_mono_r; lia).
        destruct (split_at l ltac:(lia)) as (g & -> & PG & G & L1 & L2).
        set (l1 := firstn (2 ^ g) l) in *. set (l2 := skipn (2 ^ g) l) in *.
        assert (Gf : g < f) by (apply (pow_lt_log g f (length l)); lia).
        assert (Sg : s <= g).
        { destruct (Nat.le_gt_cases s g) as [H|H]; [exact H|]. assert (X : 2 ^ S g <= 2 ^ s) by (apply Nat.pow_le_mono_r; lia). lia. }
        assert (PW : 2 ^ g = 2 ^ (g - s) * 2 ^ s) by (rewrite <- Nat.pow_add_r; f_equal; lia).
        assert (PS : 2 ^ S g = 2 ^ S (g - s) * 2 ^ s) by (rewrite <- Nat.pow_add_r; f_equal; lia).
        assert (E : l = l1 ++ l2) by (symmetry; apply firstn_skipn).
        assert (U : up hash s l = up hash s l1 ++ up hash s l2) by (rewrite E at 1; apply (up_app s l1 l2 (2 ^ (g - s))); lia).
        assert (P' : 0 < 2 ^ (g - s)) by (apply Nat.neq_0_lt_0, Nat.pow_nonzero; lia).
        assert (U1 : length (up hash s l1) = 2 ^ (g - s)) by (apply up_length_pow; lia).
        assert (U2 : length (up hash s l2) = S ((length l2 - 1) / 2 ^ s)) by (apply up_last; lia).
        assert (U2' : (length l2 - 1) / 2 ^ s < 2 ^ (g - s)).
        { apply Nat.div_lt_upper_bound; [lia|]. cbn [Nat.pow] in G. lia. }
        assert (LD : (length l - 1) / 2 ^ s = (length l2 - 1) / 2 ^ s + 2 ^ (g - s)).
        { rewrite L2. replace (length l - 1) with (length l - 2 ^ g - 1 + 2 ^ (g - s) * 2 ^ s) by lia. apply Nat.div_add. lia. }
        assert (QL : q - 1 <= (length l - 1) / 2 ^ s).
        { apply Nat.div_le_lower_bound; [lia|]. rewrite Nat.mul_sub_distr_l. lia. }
        rewrite (path_fuel (S (g - s)) (f - s)); [|cbn [Nat.pow]; lia|exact QL|lia].
        rewrite U, path_split; [|exact U1|lia|lia|exact QL].
        rewrite U2. replace (S ((length l2 - 1) / 2 ^ s) - 1) with ((length l2 - 1) / 2 ^ s) by lia. rewrite !root_up' by lia.
        assert (PS2 : 2 ^ S g = 2 * 2 ^ g) by reflexivity. rewrite (tree_hash_root hash fuel l1 g), (tree_hash_root hash fuel l2 g) by lia.
        destruct (q * 2 ^ s <=? 2 ^ g) eqn:D; [apply Nat.leb_le in D|apply Nat.leb_gt in D].
        * assert (Qg : q <= 2 ^ (g - s)) by (apply (Nat.mul_le_mono_pos_r _ _ (2 ^ s)); lia).
          rewrite (proj2 (Nat.ltb_lt (q - 1) _)) by lia.
          rewrite (IH l1 g q s b); [|lia|lia|exact O|].
          -- rewrite <- app_assoc. rewrite app_nth1 by lia. rewrite L1.
             replace ((2 ^ g - 1) / 2 ^ s) with (2 ^ (g - s) - 1); [reflexivity|].
             apply (Nat.div_unique _ _ _ (2 ^ s - 1)); [lia|]. rewrite Nat.mul_sub_distr_l. lia.
          -- destruct (Nat.eq_dec (q * 2 ^ s) (2 ^ g)) as [X|X]; [|left; lia]. right. split; [lia|].
             (* an odd power of two *)
             rewrite PW in X. apply Nat.mul_cancel_r in X; [|lia]. destruct (g - s) as [|d]; [exact X|]. cbn [Nat.pow] in X.
             rewrite X in O. rewrite Nat.odd_mul in O. discriminate.
        * assert (Qg : 2 ^ (g - s) < q) by (apply (Nat.mul_lt_mono_pos_r (2 ^ s)); lia).
          rewrite (proj2 (Nat.ltb_ge (q - 1) _)) by lia.
          assert (Sg' : s < g).
          { destruct (Nat.eq_dec s g) as [->|X]; [|lia]. rewrite Nat.sub_diag in *. change (2 ^ 0) with 1 in *.
            assert (X : q < 2) by (apply (Nat.mul_lt_mono_pos_r (2 ^ g)); cbn [Nat.pow] in G; lia). lia. }
          rewrite (proj2 (Nat.eqb_neq q 1)) by lia. rewrite andb_false_r.
          replace (q * 2 ^ s - 2 ^ g) with ((q - 2 ^ (g - s)) * 2 ^ s) by (rewrite Nat.mul_sub_distr_r; lia).
          rewrite (IH l2 g (q - 2 ^ (g - s)) s false).
          -- rewrite andb_false_l. rewrite <- app_assoc. rewrite (app_nth2 (up hash s l1)) by lia. rewrite U1.
             replace (q - 2 ^ (g - s) - 1) with (q - 1 - 2 ^ (g - s)) by lia. reflexivity.
          -- lia.
          -- cbn [Nat.pow] in G. lia.
          -- rewrite Nat.odd_sub by lia. rewrite O. destruct (g - s) as [|d] eqn:Z; [lia|]. cbn [Nat.pow]. rewrite Nat.odd_mul. reflexivity.
          -- left. rewrite Nat.mul_sub_distr_r. lia.
  Qed.

  (** * The strings *)
  Lemma pair_strings_app (l1 : list bytes) : forall l2 : list bytes, Nat.even (length l1) = true ->
    pair_strings (l1 ++ l2) = pair_strings l1 ++ pair_strings l2.
  Proof.
    induction l1 as [|a|a b r IH] using two_ind; intros l2 E; [reflexivity|discriminate|]. cbn [app pair_strings]. f_equal. apply IH, E.
  Qed.
  Lemma strings_split f : forall l1 l2 : list bytes, length l1 = 2 ^ f -> 0 < length l2 <= 2 ^ f ->
    incl (strings hash (S f) (l1 ++ l2)) ((x01 :: root hash f l1 ++ root hash f l2) :: strings hash f l1 ++ strings hash f l2).
  Proof.
    induction f as [|f IH]; intros l1 l2 L1 L2.
    - change (2 ^ 0) with 1 in *. destruct l1 as [|a [|? ?]]; cbn in L1; try lia. destruct l2 as [|b [|? ?]]; cbn in L2; try lia.
      intros x [<-|[]]. left. reflexivity.
    - cbn [Nat.pow] in *. assert (Ev : Nat.even (length l1) = true) by (rewrite L1; apply Nat.even_spec; exists (2 ^ f); lia).
      change (strings hash (S (S f)) (l1 ++ l2)) with (pair_strings (l1 ++ l2) ++ strings hash (S f) (pairup hash (l1 ++ l2))).
      rewrite pair_strings_app, pairup_app by exact Ev.
      assert (I : incl (strings hash (S f) (pairup hash l1 ++ pairup hash l2))
        ((x01 :: root hash f (pairup hash l1) ++ root hash f (pairup hash l2)) :: strings hash f (pairup hash l1) ++ strings hash f (pairup hash l2))).
      { apply IH.
        - rewrite pairup_length, L1. symmetry. apply (Nat.div_unique _ 2 _ 1); lia.
        - rewrite pairup_length. split; [apply Nat.div_str_pos; lia|].
          assert ((length l2 + 1) / 2 < S (2 ^ f)); [apply Nat.div_lt_upper_bound; lia|lia]. }
      cbn [strings root]. intros x Hx. apply in_app_or in Hx. destruct Hx as [Hx|Hx].
      + right. rewrite !in_app_iff. apply in_app_or in Hx. tauto.
      + apply I in Hx. destruct Hx as [Hx|Hx]; [left; exact Hx|]. right. rewrite !in_app_iff. apply in_app_or in Hx. tauto.
  Qed.
  Lemma strings_short f : forall l : list bytes, length l <= 1 -> strings hash f l = [].
  Proof.
    induction f as [|f IH]; intros l Hl; [reflexivity|]. destruct l as [|a [|? ?]]; [| |cbn in Hl; lia]; cbn [strings pair_strings pairup app]; apply IH; cbn; lia.
  Qed.
  Lemma strings_fuel g : forall f (l : list bytes), length l <= 2 ^ g -> g <= f -> strings hash f l = strings hash g l.
  Proof.
    induction g as [|g IH]; intros f l Hl Hg; [apply strings_short; exact Hl|]. destruct f as [|f]; [lia|]. cbn [strings]. f_equal.
    apply IH; [|lia]. rewrite pairup_length. cbn [Nat.pow] in Hl. assert ((length l + 1) / 2 < S (2 ^ g)); [apply Nat.div_lt_upper_bound; lia|lia].
  Qed.
  Lemma strings_tree fuel : forall (l : list bytes) f, length l <= fuel -> length l <= 2 ^ f -> incl (strings hash f l) (tree_strings hash fuel l).
  Proof.
    induction fuel as [|fuel IH]; intros l f Hl Hf; [rewrite strings_short by lia; apply incl_refl|]. cbn [tree_strings]. destruct (length l <=? 1) eqn:C.
    - apply Nat.leb_le in C. rewrite strings_short by exact C. apply incl_refl.
    - apply Nat.leb_gt in C. destruct (split_at l ltac:(lia)) as (g & -> & P & G & L1 & L2).
      assert (Gf : S g <= f) by (apply (pow_lt_log g f (length l)); lia). cbn [Nat.pow] in G.
      rewrite (strings_fuel (S g) f) by (cbn [Nat.pow]; lia).
      rewrite !tree_hash_root with (f := g) by lia.
      eapply incl_tran; [|apply incl_cons; [left; reflexivity|apply incl_tl, incl_app;
        [eapply incl_tran; [apply (IH (firstn (2 ^ g) l) g); lia|apply incl_appl, incl_refl]|eapply incl_tran; [apply (IH (skipn (2 ^ g) l) g); lia|apply incl_appr, incl_refl]]]].
      rewrite <- (firstn_skipn (2 ^ g) l) at 1. apply strings_split; [exact L1|lia].
  Qed.
  Lemma collision_collides A B (S : list bytes) : collision hash A B -> incl A S -> incl B S -> collides hash S.
  Proof. intros (x & y & Hx & Hy & N & E) HA HB. exists x, y. auto. Qed.
  Lemma collides_mono (A B : list bytes) : collides hash A -> incl A B -> collides hash B.
  Proof. intros (x & y & Hx & Hy & N & E) H. exists x, y. auto. Qed.

  Lemma chain_strings_app s1 : forall s2 seed p1 p2, length s1 = length p1 ->
    chain_strings hash (s1 ++ s2) seed (p1 ++ p2) = chain_strings hash s1 seed p1 ++ chain_strings hash s2 (chain hash s1 seed p1) p2.
  Proof.
    induction s1 as [|s s1 IH]; intros s2 seed p1 p2 L; destruct p1 as [|h p1]; try discriminate; [reflexivity|].
    cbn in L. injection L as L. destruct s; cbn [app chain chain_strings]; f_equal; apply IH; assumption.
  Qed.
  Lemma inner_strings_eq p : forall seed index i,
    inner_strings hash seed p index i = chain_strings hash (map (fun i => side_of (N.testbit index (N.of_nat i))) (seq i (length p))) seed p.
  Proof.
    induction p as [|h p IH]; intros seed index i; [reflexivity|]. cbn [inner_strings length seq map chain_strings].
    destruct (N.testbit index (N.of_nat i)); cbn [side_of]; f_equal; apply IH.
  Qed.
  Lemma border_strings_eq p : forall seed, border_strings hash seed p = chain_strings hash (repeat Rgt (length p)) seed p.
  Proof. induction p as [|h p IH]; intros seed; [reflexivity|]. cbn [length repeat chain_strings border_strings]. f_equal. apply IH. Qed.
  Lemma lib_strings m last seed p : length p = length (lib_sides m last) ->
    let inner := bit_len (N.lxor m last) in
    inner_strings hash seed (firstn inner p) m 0 ++ border_strings hash (chain_inner hash seed (firstn inner p) m 0) (skipn inner p) =
    chain_strings hash (lib_sides m last) seed p.
  Proof.
    intros L inner. rewrite lib_sides_length in L. fold inner in L.
    assert (L1 : length (firstn inner p) = inner) by (apply firstn_length_le; lia).
    rewrite inner_strings_eq, chain_inner_eq, border_strings_eq, L1, skipn_length.
    replace (chain_strings hash (lib_sides m last) seed p) with (chain_strings hash (lib_sides m last) seed (firstn inner p ++ skipn inner p)) by (rewrite firstn_skipn; reflexivity).
    unfold lib_sides. rewrite chain_strings_app; [|rewrite map_length, seq_length; auto].
    fold inner. f_equal. f_equal. f_equal. lia.
  Qed.

  (** * Inclusion *)
  Lemma verify_match_ok a b : verify_match a b = VOk <-> a = b.
  Proof. unfold verify_match. destruct (beqb_spec a b) as [->|N]; split; congruence. Qed.
  Lemma verify_inclusion_ok index size leaf proof r :
    verify_inclusion hash index size leaf proof r = VOk <->
    (index < size)%N /\ length leaf = hash_size /\ length proof = length (lib_sides index (size - 1)) /\ chain hash (lib_sides index (size - 1)) leaf proof = r.
  Proof.
    unfold verify_inclusion, root_from_inclusion. destruct (N.leb_spec size index) as [H|H]; [split; [discriminate|intros [H' _]; lia]|].
    destruct (Nat.eqb_spec (length leaf) hash_size) as [L|L]; cbn [negb]; [|split; [discriminate|tauto]].
    unfold inner_proof_size. rewrite <- lib_sides_length.
    destruct (Nat.eqb_spec (length proof) (length (lib_sides index (size - 1)))) as [P|P]; cbn [negb]; [|split; [discriminate|tauto]].
    rewrite verify_match_ok, lib_chain by exact P. tauto.
  Qed.

  Lemma pow_big n : n <= 2 ^ n.
  Proof. apply Nat.lt_le_incl, Nat.pow_gt_lin_r. lia. Qed.
  Lemma log_root_eq (leaves : list bytes) f : 0 < length leaves -> length leaves <= 2 ^ f -> log_hash hash leaves = root hash f (map (hash_leaf hash) leaves).
  Proof. intros H1 H2. unfold log_hash. apply tree_hash_root; rewrite map_length; lia. Qed.

  Lemma inclusion_complete (leaves : list bytes) m d : m < length leaves -> d = nth m leaves [] ->
    verify_inclusion hash (N.of_nat m) (N.of_nat (length leaves)) (hash_leaf hash d) (inclusion_path hash m leaves) (log_hash hash leaves) = VOk.
  Proof.
    intros Hm ->. set (n := length leaves) in *. set (l := map (hash_leaf hash) leaves).
    assert (L : length l = n) by apply map_length. assert (B := pow_big n).
    assert (S1 : lib_sides (N.of_nat m) (N.of_nat n - 1) = sides n m (n - 1)).
    { rewrite <- (sides_lib n) by lia. f_equal; lia. }
    apply verify_inclusion_ok. rewrite S1. change (inclusion_path hash m leaves) with (rfc_path hash n m l). rewrite (rfc_path_eq n l m n) by lia. rewrite L.
    split; [lia|]. split; [apply Hlen|]. split; [apply path_length|].
    rewrite (log_root_eq leaves n) by lia. fold l.
    replace (hash_leaf hash (nth m leaves [])) with (nth m l []).
    - apply chain_complete; lia.
    - unfold l. rewrite <- (map_nth (hash_leaf hash)). apply nth_indep. rewrite map_length. exact Hm.
  Qed.

  Lemma inclusion_sound (leaves : list bytes) index leaf proof :
    verify_inclusion hash index (N.of_nat (length leaves)) leaf proof (log_hash hash leaves) = VOk ->
    (N.to_nat index < length leaves /\ leaf = hash_leaf hash (nth (N.to_nat index) leaves []) /\ proof = inclusion_path hash (N.to_nat index) leaves) \/
    collides hash (log_strings hash leaves ++ inclusion_strings hash index (N.of_nat (length leaves)) leaf proof).
  Proof.
    intros H. apply verify_inclusion_ok in H. destruct H as (Hi & Hl & Hp & H).
    set (n := length leaves) in *. set (l := map (hash_leaf hash) leaves).
    assert (L : length l = n) by apply map_length. assert (B := pow_big n). set (m := N.to_nat index) in *.
    assert (S1 : lib_sides index (N.of_nat n - 1) = sides n m (n - 1)).
    { rewrite <- (sides_lib n) by lia. f_equal; lia. }
    assert (ST := lib_strings index (N.of_nat n - 1) leaf proof Hp). cbn [Nat.add] in ST. rewrite S1 in *.
    rewrite (log_root_eq leaves n) in H by lia. fold l in H.
    destruct (chain_sound hash Hlen n m (n - 1) l leaf proof) as [[E1 E2]|C].
    - lia.
    - lia.
    - lia.
    - apply leaf_sized. exact Hlen.
    - exact Hp.
    - left. exact Hl.
    - exact H.
    - left. split; [lia|]. split.
      + rewrite E1. unfold l. rewrite <- (map_nth (hash_leaf hash)). apply nth_indep. rewrite map_length. lia.
      + rewrite E2. change (inclusion_path hash m leaves) with (rfc_path hash n m l). rewrite (rfc_path_eq n l m n) by lia. rewrite L. reflexivity.
    - right. apply (collision_collides _ _ _ C).
      + intros x Hx. apply in_or_app. left. unfold log_strings. apply in_or_app. right. fold l n. apply (strings_tree n l n); [lia|lia|exact Hx].
      + intros x Hx. apply in_or_app. right. unfold inclusion_strings, inner_proof_size. rewrite ST. exact Hx.
  Qed.

  (** Which string was the leaf: two leaves with one hash are a collision as well *)
  Lemma leaf_collision (leaves : list bytes) (d e : bytes) : hash_leaf hash d = hash_leaf hash e -> In e leaves -> d = e \/ collides hash ((x00 :: d) :: log_strings hash leaves).
  Proof.
    intros E Hin. destruct (bytes_dec d e) as [->|N]; [auto|]. right. exists (x00 :: d), (x00 :: e). split; [left; reflexivity|]. split.
    - right. unfold log_strings. apply in_or_app. left. apply (in_map (fun d => x00 :: d)). exact Hin.
    - split; [congruence|]. exact E.
  Qed.

  Lemma verify_proofs_ok t leaf proofs : verify_proofs hash t leaf proofs = VOk -> exists p, In (Some p) proofs /\
    verify_inclusion hash (to_uint64 (leaf_index p)) (tree_size t) leaf (hashes p) (root_hash t) = VOk.
  Proof.
    induction proofs as [|[p|] proofs IH]; cbn [verify_proofs]; try discriminate. destruct (verify_inclusion _ _ _ _ _ _) eqn:E; try discriminate.
    - intros _. exists p. split; [left; reflexivity|exact E].
    - intros H. destruct (IH H) as (q & Hq & E'). exists q. split; [right; exact Hq|exact E'].
  Qed.
  Lemma proofs_strings_incl size leaf proofs p : In (Some p) proofs ->
    incl (inclusion_strings hash (to_uint64 (leaf_index p)) size leaf (hashes p)) (proofs_strings hash size leaf proofs).
  Proof. intros H x Hx. unfold proofs_strings. apply in_flat_map. exists (Some p). auto. Qed.

  Lemma by_hash_sound (leaves : list bytes) d proofs :
    verify_inclusion_by_hash hash (Some (mk_root (N.of_nat (length leaves)) (log_hash hash leaves))) (hash_leaf hash d) proofs = VOk ->
    In d leaves \/ collides hash ((x00 :: d) :: log_strings hash leaves ++ proofs_strings hash (N.of_nat (length leaves)) (hash_leaf hash d) proofs).
  Proof.
    intros H. apply verify_proofs_ok in H. destruct H as (p & Hp & H). cbn [tree_size root_hash] in H.
    destruct (inclusion_sound _ _ _ _ H) as [(Hi & E & _)|C].
    - destruct (leaf_collision leaves _ _ E) as [->|C]; [apply nth_In, Hi|left; apply nth_In, Hi|].
      right. apply (collides_mono _ _ C). intros x [<-|Hx]; [left; reflexivity|]. right. apply in_or_app. auto.
    - right. apply (collides_mono _ _ C). intros x Hx. right. apply in_app_or in Hx. apply in_or_app. destruct Hx as [Hx|Hx]; [auto|].
      right. apply (proofs_strings_incl _ _ _ _ Hp _ Hx).
  Qed.

  (** * Consistency *)
  Lemma bit_len_pos n : n <> 0%N -> 0 < bit_len n.
  Proof. intros H. rewrite (bit_len_div2 _ H). lia. Qed.
  (** The numbers the library computes, for sizes [(2 * q + 1) * 2 ^ s] and [n2] *)
  Lemma consistency_numbers n1 n2 : (0 < n1 < n2)%N -> exists q,
    let s := trailing_zeros n1 in let last := ((n2 - 1) / 2 ^ N.of_nat s)%N in
    n1 = ((2 * q + 1) * 2 ^ N.of_nat s)%N /\ N.shiftr (n1 - 1) (N.of_nat s) = (2 * q)%N /\ (2 * q < last)%N /\
    ((n1 =? N.shiftl 1 (N.of_nat s))%N = (q =? 0)%N) /\
    inner_proof_size (n1 - 1) n2 - s = bit_len (N.lxor (2 * q) last) /\
    border_proof_size (n1 - 1) (inner_proof_size (n1 - 1) n2) = border_proof_size (2 * q) (bit_len (N.lxor (2 * q) last)).
  Proof.
    intros Hn. destruct (trailing_zeros_spec n1) as [q Hq]; [lia|]. exists q. cbv zeta. set (s := trailing_zeros n1) in *.
    set (P := (2 ^ N.of_nat s)%N) in *. assert (HP : (P <> 0)%N) by (apply N.pow_nonzero; lia).
    assert (M : N.shiftr (n1 - 1) (N.of_nat s) = (2 * q)%N).
    { rewrite N.shiftr_div_pow2. fold P. symmetry. apply (N.div_unique _ _ _ (P - 1)); [lia|]. rewrite Hq, N.mul_add_distr_r, N.mul_1_l. lia. }
    assert (Lt : (2 * q < (n2 - 1) / P)%N).
    { apply N.lt_le_trans with (2 * q + 1)%N; [lia|]. apply N.div_le_lower_bound; [exact HP|]. lia. }
    assert (X : N.shiftr (N.lxor (n1 - 1) (n2 - 1)) (N.of_nat s) = N.lxor (2 * q) ((n2 - 1) / P)).
    { rewrite N.shiftr_lxor, M, (N.shiftr_div_pow2 (n2 - 1)). reflexivity. }
    assert (X0 : N.lxor (2 * q) ((n2 - 1) / P) <> 0%N) by (intros E; apply N.lxor_eq in E; lia).
    assert (BL := bit_len_shiftr s (N.lxor (n1 - 1) (n2 - 1))). rewrite X in BL. specialize (BL X0). assert (B0 := bit_len_pos _ X0).
    split; [exact Hq|]. split; [exact M|]. split; [exact Lt|]. split; [|split].
    - rewrite N.shiftl_1_l. fold P. destruct (N.eqb_spec q 0) as [->|N0].
      + apply N.eqb_eq. lia.
      + apply N.eqb_neq. intros E. rewrite Hq in E. assert (T : (1 * P < (2 * q + 1) * P)%N) by (apply N.mul_lt_mono_pos_r; lia). lia.
    - unfold inner_proof_size. symmetry. exact BL.
    - unfold border_proof_size, inner_proof_size. rewrite BL, <- M, N.shiftr_shiftr. f_equal. f_equal. lia.
  Qed.

  Lemma consistency_ok n1 n2 proof r1 r2 : (0 < n1 < n2)%N -> exists q,
    let last := ((n2 - 1) / 2 ^ N.of_nat (trailing_zeros n1))%N in
    n1 = ((2 * q + 1) * 2 ^ N.of_nat (trailing_zeros n1))%N /\ (2 * q < last)%N /\
    (verify_consistency hash n1 n2 proof r1 r2 = VOk <-> exists seed p,
      (q = 0%N /\ seed = r1 /\ proof = p \/ q <> 0%N /\ proof = seed :: p) /\ length p = length (lib_sides (2 * q) last) /\
      chain_right hash (lib_sides (2 * q) last) seed p = r1 /\ chain hash (lib_sides (2 * q) last) seed p = r2) /\
    (forall seed p, (q = 0%N /\ seed = r1 /\ proof = p \/ q <> 0%N /\ proof = seed :: p) -> length p = length (lib_sides (2 * q) last) ->
      consistency_strings hash n1 n2 proof r1 = chain_strings hash (lib_sides (2 * q) last) seed p).
  Proof.
    intros Hn. destruct (consistency_numbers n1 n2 Hn) as (q & Hq & M & Lt & Pw & In & Bo). exists q. cbv zeta in *.
    set (s := trailing_zeros n1) in *. set (last := ((n2 - 1) / 2 ^ N.of_nat s)%N) in *. split; [exact Hq|]. split; [exact Lt|].
    unfold verify_consistency, consistency_strings. fold s. rewrite (proj2 (N.ltb_ge n2 n1)) by lia. rewrite (proj2 (N.eqb_neq n1 n2)) by lia. rewrite (proj2 (N.eqb_neq n1 0)) by lia.
    rewrite Bo, Pw, In, M. assert (LL := lib_sides_length (2 * q) last).
    set (inner := bit_len (N.lxor (2 * q) last)) in *. set (border := border_proof_size (2 * q) inner) in *.
    assert (B0 : 0 < inner) by (apply bit_len_pos; intros E; apply N.lxor_eq in E; lia).
    destruct (N.eqb_spec q 0) as [Q|Q].
    - split; [|intros seed p [(_ & -> & ->)|(Q' & E)] L; [exact (lib_strings (2 * q) last r1 p L)|congruence]].
      destruct proof as [|h proof].
      + split; [discriminate|]. intros (seed & p & [(_ & _ & <-)|(Q' & E)] & L & _); [rewrite LL in L; cbn [length] in L; lia|congruence].
      + set (pr := h :: proof). change (0 + inner + border) with (inner + border).
        destruct (Nat.eqb_spec (length pr) (inner + border)) as [L|L]; cbn [negb].
        * assert (L' : length pr = length (lib_sides (2 * q) last)) by lia.
          assert (E1 := lib_chain_right hash (2 * q) last r1 pr L'). assert (E2 := lib_chain hash (2 * q) last r1 pr L'). cbv zeta in E1, E2. fold inner in E1, E2. rewrite E1, E2.
          split.
          -- intros H. destruct (verify_match (chain_right hash (lib_sides (2 * q) last) r1 pr) r1) eqn:V; try discriminate.
             apply verify_match_ok in V. apply verify_match_ok in H. exists r1, pr. repeat split; auto.
          -- intros (seed & p & [(_ & -> & <-)|(Q' & E)] & _ & H1 & H2); [|congruence].
             rewrite (proj2 (verify_match_ok _ _) H1). apply verify_match_ok, H2.
        * split; [discriminate|]. intros (seed & p & [(_ & -> & <-)|(Q' & E)] & L' & _); [lia|congruence].
    - split; [|intros seed p [(Q' & _)|(_ & ->)] L; [congruence|exact (lib_strings (2 * q) last seed p L)]].
      destruct proof as [|h p].
      + split; [discriminate|]. intros (seed & p & [(Q' & _)|(_ & E)] & _); congruence.
      + change (1 + inner + border) with (S (inner + border)). cbn [length hd tl].
        destruct (Nat.eqb_spec (S (length p)) (S (inner + border))) as [L|L]; cbn [negb].
        * assert (L' : length p = length (lib_sides (2 * q) last)) by lia.
          assert (E1 := lib_chain_right hash (2 * q) last h p L'). assert (E2 := lib_chain hash (2 * q) last h p L'). cbv zeta in E1, E2. fold inner in E1, E2. rewrite E1, E2.
          split.
          -- intros H. destruct (verify_match (chain_right hash (lib_sides (2 * q) last) h p) r1) eqn:V; try discriminate.
             apply verify_match_ok in V. apply verify_match_ok in H. exists h, p. repeat split; auto.
          -- intros (seed & p' & [(Q' & _)|(_ & E)] & _ & H1 & H2); [congruence|]. injection E as <- <-.
             rewrite (proj2 (verify_match_ok _ _) H1). apply verify_match_ok, H2.
        * split; [discriminate|]. intros (seed & p' & [(Q' & _)|(_ & E)] & L' & _); [congruence|]. injection E as <- <-. lia.
  Qed.

  (** In natural numbers *)
  Lemma consistency_nat n1 n2 : 0 < n1 < n2 -> forall proof r1 r2, exists q s,
    n1 = (2 * q + 1) * 2 ^ s /\ 2 * q < (n2 - 1) / 2 ^ s /\
    (verify_consistency hash (N.of_nat n1) (N.of_nat n2) proof r1 r2 = VOk <-> exists seed p,
      (q = 0 /\ seed = r1 /\ proof = p \/ q <> 0 /\ proof = seed :: p) /\ length p = length (sides n2 (2 * q) ((n2 - 1) / 2 ^ s)) /\
      chain_right hash (sides n2 (2 * q) ((n2 - 1) / 2 ^ s)) seed p = r1 /\ chain hash (sides n2 (2 * q) ((n2 - 1) / 2 ^ s)) seed p = r2) /\
    (forall seed p, (q = 0 /\ seed = r1 /\ proof = p \/ q <> 0 /\ proof = seed :: p) -> length p = length (sides n2 (2 * q) ((n2 - 1) / 2 ^ s)) ->
      consistency_strings hash (N.of_nat n1) (N.of_nat n2) proof r1 = chain_strings hash (sides n2 (2 * q) ((n2 - 1) / 2 ^ s)) seed p).
  Proof.
    intros Hn proof r1 r2. destruct (consistency_ok (N.of_nat n1) (N.of_nat n2) proof r1 r2) as (q & Hq & Lt & E & ST); [lia|]. cbv zeta in *.
    set (s := trailing_zeros (N.of_nat n1)) in *. exists (N.to_nat q), s.
    assert (P2 : N.to_nat (2 ^ N.of_nat s)%N = 2 ^ s).
    { rewrite N2Nat.inj_pow, Nat2N.id. reflexivity. }
    assert (D : N.to_nat ((N.of_nat n2 - 1) / 2 ^ N.of_nat s) = (n2 - 1) / 2 ^ s).
    { rewrite N2Nat.inj_div, P2. f_equal. lia. }
    assert (S1 : lib_sides (2 * q) ((N.of_nat n2 - 1) / 2 ^ N.of_nat s) = sides n2 (2 * N.to_nat q) ((n2 - 1) / 2 ^ s)).
    { rewrite <- (sides_lib n2); [|lia|].
      - f_equal; [lia|exact D].
      - rewrite D. assert (B := pow_big n2). assert (D' : (n2 - 1) / 2 ^ s <= n2 - 1); [|lia].
        apply Nat.div_le_upper_bound; [apply Nat.pow_nonzero; lia|]. assert (0 < 2 ^ s) by (apply Nat.neq_0_lt_0, Nat.pow_nonzero; lia).
        assert (1 * (n2 - 1) <= 2 ^ s * (n2 - 1)) by (apply Nat.mul_le_mono_r; lia). lia. }
    rewrite S1 in E, ST. split; [|split; [|split]].
    - rewrite <- P2. assert (T : N.to_nat (N.of_nat n1) = N.to_nat ((2 * q + 1) * 2 ^ N.of_nat s)) by (rewrite <- Hq; reflexivity).
      rewrite Nat2N.id, N2Nat.inj_mul in T. rewrite T. f_equal. lia.
    - rewrite <- D. lia.
    - rewrite E. split; intros (seed & p & H & R); exists seed, p; (split; [|exact R]).
      + destruct H as [(-> & H)|(H & H')]; [left; auto|right; split; [lia|exact H']].
      + destruct H as [(H & H')|(H & H')]; [left; split; [lia|exact H']|right; split; [lia|exact H']].
    - intros seed p H L. apply ST; [|exact L]. destruct H as [(H & H')|(H & H')]; [left; split; [lia|exact H']|right; split; [lia|exact H']].
  Qed.

  (** There is at least one step *)
  Lemma sides_some f m last : 0 < f -> m < last -> 0 < length (sides f m last).
  Proof.
    intros Hf Hm. destruct f as [|f]; [lia|]. cbn [sides]. rewrite app_length. destruct (Nat.odd m); [cbn [length]; lia|].
    rewrite (proj2 (Nat.ltb_lt _ _) Hm). cbn [length]. lia.
  Qed.

  Section Log.
    Variable leaves : list bytes.
    Let n := length leaves.
    Let l := map (hash_leaf hash) leaves.
    Lemma l_length : length l = n.
    Proof. apply map_length. Qed.
    Lemma level_length s : 0 < n -> length (up hash s l) = S ((n - 1) / 2 ^ s).
    Proof. intros H. apply up_last. rewrite l_length. lia. Qed.
    Lemma level_bound s : 0 < n -> (n - 1) / 2 ^ s < 2 ^ (n - s).
    Proof.
      intros H. assert (B := pow_big n). apply Nat.div_lt_upper_bound; [apply Nat.pow_nonzero; lia|]. rewrite <- Nat.pow_add_r.
      apply Nat.lt_le_trans with (2 ^ n); [lia|]. apply Nat.pow_le_mono_r; lia.
    Qed.
    Lemma level_bound' s : 0 < n -> (n - 1) / 2 ^ s < 2 ^ n.
    Proof. intros H. apply Nat.lt_le_trans with (2 ^ (n - s)); [apply level_bound, H|]. apply Nat.pow_le_mono_r; lia. Qed.
    (** The root, computed from level [s] *)
    Lemma level_root s : 0 < n -> root hash n (up hash s l) = log_hash hash leaves.
    Proof.
      intros H. rewrite (log_root_eq leaves (s + n)); [|exact H|].
      - symmetry. apply root_up.
      - assert (B := pow_big n). apply Nat.le_trans with (2 ^ n); [exact B|]. apply Nat.pow_le_mono_r; lia.
    Qed.
    Lemma level_prefix q s : 0 < q -> q * 2 ^ s <= n -> root hash n (firstn q (up hash s l)) = log_hash hash (firstn (q * 2 ^ s) leaves).
    Proof.
      intros Hq H. assert (P : 0 < 2 ^ s) by (apply Nat.neq_0_lt_0, Nat.pow_nonzero; lia).
      assert (Q : 1 * 2 ^ s <= q * 2 ^ s) by (apply Nat.mul_le_mono_r; lia).
      assert (L : length (firstn (q * 2 ^ s) leaves) = q * 2 ^ s) by (apply firstn_length_le; exact H).
      rewrite (log_root_eq (firstn (q * 2 ^ s) leaves) (s + n)).
      - rewrite root_up. f_equal. rewrite <- firstn_map. fold l. symmetry. apply up_firstn. rewrite l_length. exact H.
      - lia.
      - rewrite L. assert (B := pow_big n). apply Nat.le_trans with (2 ^ n); [lia|]. apply Nat.pow_le_mono_r; lia.
    Qed.
    Lemma level_strings s : incl (strings hash n (up hash s l)) (log_strings hash leaves).
    Proof.
      eapply incl_tran; [apply strings_up|]. unfold log_strings. apply incl_appr. apply (strings_tree n l (s + n)); rewrite l_length; [lia|].
      assert (B := pow_big n). apply Nat.le_trans with (2 ^ n); [exact B|]. apply Nat.pow_le_mono_r; lia.
    Qed.

    (** What follows when the nodes on the way to the new root are the right ones *)
    Lemma right_nodes q s seed p r1 : 0 < n -> (2 * q + 1) * 2 ^ s <= n -> 2 * q <= (n - 1) / 2 ^ s ->
      seed = nth (2 * q) (up hash s l) [] -> p = path hash n (up hash s l) (2 * q) ((n - 1) / 2 ^ s) ->
      chain_right hash (sides n (2 * q) ((n - 1) / 2 ^ s)) seed p = r1 -> r1 = log_hash hash (firstn ((2 * q + 1) * 2 ^ s) leaves).
    Proof.
      intros H Hn Hq -> -> <-. rewrite chain_right_prefix; [|apply level_length, H|exact Hq|apply level_bound', H].
      rewrite <- firstn_S by (rewrite level_length; lia). rewrite <- level_prefix by lia. f_equal. f_equal. lia.
    Qed.

    Lemma consistency_sound n1 proof r1 : 0 < n1 -> Forall (fun h => length h = hash_size) proof ->
      verify_consistency hash (N.of_nat n1) (N.of_nat n) proof r1 (log_hash hash leaves) = VOk ->
      (n1 <= n /\ r1 = log_hash hash (firstn n1 leaves)) \/
      collides hash (log_strings hash leaves ++ consistency_strings hash (N.of_nat n1) (N.of_nat n) proof r1).
    Proof.
      intros H0 Z H. destruct (Nat.lt_trichotomy n1 n) as [Hlt|[He|Hgt]].
      - destruct (consistency_nat n1 n ltac:(lia) proof r1 (log_hash hash leaves)) as (q & s & E & Lt & V & ST). apply V in H. clear V.
        destruct H as (seed & p & Hs & Lp & H1 & H2). rewrite (ST seed p Hs Lp).
        assert (Hn : 0 < n) by lia.
        rewrite <- (level_root s Hn) in H2.
        destruct (chain_sound hash Hlen n (2 * q) ((n - 1) / 2 ^ s) (up hash s l) seed p) as [[E1 E2]|C].
        + apply level_length, Hn.
        + lia.
        + apply level_bound', Hn.
        + apply up_sized; [exact Hlen|]. apply leaf_sized. exact Hlen.
        + exact Lp.
        + destruct Hs as [(_ & _ & ->)|(_ & ->)].
          * right. destruct p as [|h p]; [|exists h, p; split; [reflexivity|inversion Z; assumption]]. exfalso.
            assert (X := sides_some n (2 * q) ((n - 1) / 2 ^ s) Hn Lt). rewrite <- Lp in X. cbn [length] in X. lia.
          * left. inversion Z. assumption.
        + exact H2.
        + left. split; [lia|]. rewrite E. apply (right_nodes q s seed p); auto; lia.
        + right. apply (collision_collides _ _ _ C).
          * apply incl_appl, level_strings.
          * apply incl_appr, incl_refl.
      - left. split; [lia|]. subst n1. unfold verify_consistency in H. rewrite N.ltb_irrefl, N.eqb_refl in H. destruct proof; [|discriminate].
        apply verify_match_ok in H. rewrite H. unfold n. rewrite firstn_all. reflexivity.
      - exfalso. unfold verify_consistency in H. rewrite (proj2 (N.ltb_lt _ _)) in H by lia. discriminate.
    Qed.

    Lemma consistency_complete n1 : 0 < n1 <= n ->
      verify_consistency hash (N.of_nat n1) (N.of_nat n) (consistency_path hash n1 leaves) (log_hash hash (firstn n1 leaves)) (log_hash hash leaves) = VOk.
    Proof.
      intros H. destruct (Nat.eq_dec n1 n) as [->|Hne].
      - unfold verify_consistency. rewrite N.ltb_irrefl, N.eqb_refl. unfold consistency_path. fold n l.
        assert (X : rfc_subproof hash n n l true = []).
        { destruct n as [|m] eqn:E; [reflexivity|]. cbn [rfc_subproof]. rewrite l_length, E, Nat.eqb_refl. reflexivity. }
        rewrite X. apply verify_match_ok. unfold n. rewrite firstn_all. reflexivity.
      - assert (Hn : 0 < n) by lia.
        destruct (consistency_nat n1 n ltac:(lia) (consistency_path hash n1 leaves) (log_hash hash (firstn n1 leaves)) (log_hash hash leaves)) as (q & s & E & Lt & V & _).
        apply V. clear V. assert (P : 0 < 2 ^ s) by (apply Nat.neq_0_lt_0, Nat.pow_nonzero; lia).
        set (seed := nth (2 * q) (up hash s l) []). set (p := path hash n (up hash s l) (2 * q) ((n - 1) / 2 ^ s)).
        assert (Lp : length p = length (sides n (2 * q) ((n - 1) / 2 ^ s))) by apply path_length.
        assert (H1 : chain_right hash (sides n (2 * q) ((n - 1) / 2 ^ s)) seed p = log_hash hash (firstn n1 leaves)).
        { rewrite E. apply (right_nodes q s seed p); auto; lia. }
        assert (CP : consistency_path hash n1 leaves = (if q =? 0 then [] else [seed]) ++ p).
        { change (consistency_path hash n1 leaves) with (rfc_subproof hash n n1 l true). rewrite E.
          rewrite (rfc_subproof_eq n l (s + n) (2 * q + 1) s true).
          - replace (2 * q + 1 - 1) with (2 * q) by lia. rewrite l_length. rewrite andb_true_l. replace (2 * q + 1 =? 1) with (q =? 0).
            + f_equal. replace (s + n - s) with n by lia. reflexivity.
            + destruct q; [reflexivity|]. symmetry. apply Nat.eqb_neq. lia.
          - rewrite l_length. lia.
          - rewrite l_length. assert (B := pow_big n). apply Nat.le_trans with (2 ^ n); [exact B|]. apply Nat.pow_le_mono_r; lia.
          - rewrite Nat.add_comm, Nat.odd_add_mul_2. reflexivity.
          - rewrite l_length. left. lia. }
        assert (SE : q = 0 -> seed = log_hash hash (firstn n1 leaves)).
        { intros ->. unfold seed. change (2 * 0) with 0. rewrite E. change (2 * 0 + 1) with 1. rewrite <- level_prefix by lia.
          assert (LL := level_length s Hn). destruct (up hash s l) as [|a r]; [discriminate|]. cbn [firstn nth]. symmetry. apply root_single. }
        exists seed, p. split; [|split; [exact Lp|split; [exact H1|]]].
        + rewrite CP. destruct q as [|q']; [left; repeat split; auto|right; split; [lia|reflexivity]].
        + rewrite <- (level_root s Hn). apply chain_complete; [apply level_length, Hn|lia|apply level_bound', Hn].
    Qed.
  End Log.

  (** * Two honest roots *)
  Definition is_right (s : side) : bool := match s with Rgt => true | Lft => false end.
  Fixpoint pick (ss : list side) (p : list bytes) : list bytes :=
    match ss, p with Rgt :: ss', h :: p' => h :: pick ss' p' | Lft :: ss', _ :: p' => pick ss' p' | _, _ => [] end.
  Lemma chain_right_filter ss : forall seed p, length p = length ss -> chain_right hash ss seed p = chain hash (filter is_right ss) seed (pick ss p).
  Proof.
    induction ss as [|x ss IH]; intros seed p L; destruct p as [|h p]; try discriminate; [reflexivity|]. injection L as L.
    destruct x; cbn [chain_right filter is_right pick chain]; apply IH, L.
  Qed.
  Lemma pick_length ss : forall p : list bytes, length p = length ss -> length (pick ss p) = length (filter is_right ss).
  Proof.
    induction ss as [|x ss IH]; intros p L; destruct p as [|h p]; try discriminate; [reflexivity|]. injection L as L.
    destruct x; cbn [filter is_right pick length]; [|f_equal]; apply IH, L.
  Qed.
  Lemma pick_in ss : forall (p : list bytes) x, In x (pick ss p) -> In x p.
  Proof.
    induction ss as [|y ss IH]; intros p x H; destruct p as [|h p]; [destruct H|destruct H|destruct y; destruct H|].
    destruct y; cbn [pick] in H.
    - right. apply IH, H.
    - destruct H as [<-|H]; [left; reflexivity|right; apply IH, H].
  Qed.
  Lemma filter_sides f : forall m last, filter is_right (sides f m last) = sides f m m.
  Proof.
    induction f as [|f IH]; intros m last; [reflexivity|]. cbn [sides]. rewrite filter_app, IH, Nat.ltb_irrefl.
    destruct (Nat.odd m); [reflexivity|]. destruct (m <? last); reflexivity.
  Qed.
  Lemma pick_app s1 : forall s2 (p1 p2 : list bytes), length s1 = length p1 -> pick (s1 ++ s2) (p1 ++ p2) = pick s1 p1 ++ pick s2 p2.
  Proof.
    induction s1 as [|x s1 IH]; intros s2 p1 p2 L; destruct p1 as [|h p1]; try discriminate; [reflexivity|]. injection L as L.
    destruct x; cbn [app pick]; [|f_equal]; apply IH, L.
  Qed.
  Lemma inner_right_strings_eq p : forall seed index i,
    let ss := map (fun i => side_of (N.testbit index (N.of_nat i))) (seq i (length p)) in
    inner_right_strings hash seed p index i = chain_strings hash (filter is_right ss) seed (pick ss p).
  Proof.
    induction p as [|h p IH]; intros seed index i; [reflexivity|]. cbn [inner_right_strings length seq map].
    destruct (N.testbit index (N.of_nat i)); cbn [side_of filter is_right pick chain_strings]; [f_equal|]; apply IH.
  Qed.
  Lemma filter_repeat k : filter is_right (repeat Rgt k) = repeat Rgt k.
  Proof. induction k as [|k IH]; [reflexivity|]. cbn [repeat filter is_right]. f_equal. exact IH. Qed.
  Lemma pick_repeat (p : list bytes) : pick (repeat Rgt (length p)) p = p.
  Proof. induction p as [|h p IH]; [reflexivity|]. cbn [length repeat pick]. f_equal. exact IH. Qed.
  Lemma lib_strings_right m last seed p : length p = length (lib_sides m last) ->
    let inner := bit_len (N.lxor m last) in
    inner_right_strings hash seed (firstn inner p) m 0 ++ border_strings hash (chain_inner_right hash seed (firstn inner p) m 0) (skipn inner p) =
    chain_strings hash (filter is_right (lib_sides m last)) seed (pick (lib_sides m last) p).
  Proof.
    intros L inner. rewrite lib_sides_length in L. fold inner in L.
    assert (L1 : length (firstn inner p) = inner) by (apply firstn_length_le; lia).
    assert (L2 : length (skipn inner p) = border_proof_size m inner) by (rewrite skipn_length; lia).
    rewrite inner_right_strings_eq, chain_inner_right_eq, border_strings_eq, L1, L2.
    replace (pick (lib_sides m last) p) with (pick (lib_sides m last) (firstn inner p ++ skipn inner p)) by (rewrite firstn_skipn; reflexivity).
    unfold lib_sides. fold inner. rewrite pick_app by (rewrite map_length, seq_length; auto). rewrite filter_app, filter_repeat.
    rewrite chain_strings_app.
    - rewrite <- chain_right_filter by (rewrite map_length, seq_length; auto). f_equal. f_equal.
      rewrite <- L2. symmetry. apply pick_repeat.
    - symmetry. apply pick_length. rewrite map_length, seq_length. exact L1.
  Qed.

  (** The strings of the first root, as [consistency_nat] has them *)
  Lemma strings_right_nat n1 n2 proof r1 : 0 < n1 < n2 -> exists q s, n1 = (2 * q + 1) * 2 ^ s /\
    forall seed p, (q = 0 /\ seed = r1 /\ proof = p \/ q <> 0 /\ proof = seed :: p) -> length p = length (sides n2 (2 * q) ((n2 - 1) / 2 ^ s)) ->
      consistency_strings_right hash (N.of_nat n1) (N.of_nat n2) proof r1 =
      chain_strings hash (filter is_right (sides n2 (2 * q) ((n2 - 1) / 2 ^ s))) seed (pick (sides n2 (2 * q) ((n2 - 1) / 2 ^ s)) p).
  Proof.
    intros Hn. destruct (consistency_numbers (N.of_nat n1) (N.of_nat n2)) as (q & Hq & M & Lt & Pw & In & Bo); [lia|]. cbv zeta in *.
    set (s := trailing_zeros (N.of_nat n1)) in *. exists (N.to_nat q), s.
    assert (P2 : N.to_nat (2 ^ N.of_nat s)%N = 2 ^ s) by (rewrite N2Nat.inj_pow, Nat2N.id; reflexivity).
    assert (D : N.to_nat ((N.of_nat n2 - 1) / 2 ^ N.of_nat s) = (n2 - 1) / 2 ^ s) by (rewrite N2Nat.inj_div, P2; f_equal; lia).
    set (last := ((N.of_nat n2 - 1) / 2 ^ N.of_nat s)%N) in *.
    assert (S1 : lib_sides (2 * q) last = sides n2 (2 * N.to_nat q) ((n2 - 1) / 2 ^ s)).
    { rewrite <- (sides_lib n2); [|lia|].
      - f_equal; [lia|exact D].
      - rewrite D. assert (B := pow_big n2). assert (D' : (n2 - 1) / 2 ^ s <= n2 - 1); [|lia].
        apply Nat.div_le_upper_bound; [apply Nat.pow_nonzero; lia|]. assert (0 < 2 ^ s) by (apply Nat.neq_0_lt_0, Nat.pow_nonzero; lia).
        assert (1 * (n2 - 1) <= 2 ^ s * (n2 - 1)) by (apply Nat.mul_le_mono_r; lia). lia. }
    split.
    - rewrite <- P2. assert (T : N.to_nat (N.of_nat n1) = N.to_nat ((2 * q + 1) * 2 ^ N.of_nat s)) by (rewrite <- Hq; reflexivity).
      rewrite Nat2N.id, N2Nat.inj_mul in T. rewrite T. f_equal. lia.
    - rewrite <- S1. intros seed p H L. unfold consistency_strings_right. fold s. rewrite Pw, In, M.
      destruct H as [(Q & -> & ->)|(Q & ->)].
      + replace q with 0%N in * by lia. exact (lib_strings_right _ last r1 p L).
      + rewrite (proj2 (N.eqb_neq q 0)) by lia. exact (lib_strings_right _ last seed p L).
  Qed.
  (** A number is an odd number times a power of two in one way only *)
  Lemma odd_part q s q' s' : (2 * q + 1) * 2 ^ s = (2 * q' + 1) * 2 ^ s' -> q = q' /\ s = s'.
  Proof.
    revert s'. induction s as [|s IH]; intros [|s'] E; cbn [Nat.pow] in E.
    - lia.
    - exfalso. assert (X : Nat.odd ((2 * q + 1) * 1) = Nat.odd ((2 * q' + 1) * (2 * 2 ^ s'))) by (rewrite E; reflexivity).
      rewrite !Nat.odd_mul in X. rewrite Nat.add_comm, Nat.odd_add_mul_2 in X. cbn in X. rewrite andb_false_r in X. discriminate.
    - exfalso. assert (X : Nat.odd ((2 * q + 1) * (2 * 2 ^ s)) = Nat.odd ((2 * q' + 1) * 1)) by (rewrite E; reflexivity).
      rewrite !Nat.odd_mul in X. rewrite (Nat.add_comm (2 * q')), Nat.odd_add_mul_2 in X. cbn in X. rewrite andb_false_r in X. discriminate.
    - destruct (IH s') as [-> ->]; [|auto].
      assert (X : 2 * ((2 * q + 1) * 2 ^ s) = 2 * ((2 * q' + 1) * 2 ^ s')) by lia. lia.
  Qed.

  Lemma path_sized f : forall (l : list bytes) m last x, length l = S last -> m <= last -> last < 2 ^ f -> sized l -> In x (path hash f l m last) -> length x = hash_size.
  Proof.
    induction f as [|f IH]; intros l m last x L Hm Hf Z H; [destruct H|]. cbn [path] in H. apply in_app_or in H. destruct H as [H|H].
    - destruct (Nat.odd m); [|destruct (m <? last) eqn:E; [apply Nat.ltb_lt in E|destruct H]].
      + destruct H as [<-|[]]. apply sized_nth; [exact Z|lia].
      + destruct H as [<-|[]]. apply sized_nth; [exact Z|lia].
    - apply (IH _ _ _ _ (pairup_last hash _ _ L) (half_le _ _ Hm) (half_lt _ _ Hf) (pairup_sized hash Hlen _ Z) H).
  Qed.
  Lemma tree_hash_length fuel (l : list bytes) : sized l -> 0 < length l -> length (tree_hash hash fuel l) = hash_size.
  Proof.
    intros Z H. destruct fuel as [|fuel]; [apply Hlen|]. destruct l as [|a [|b r]]; [apply Hlen|apply Z; left; reflexivity|apply Hlen].
  Qed.
  Lemma up_step s : forall l : list bytes, up hash (S s) l = pairup hash (up hash s l).
  Proof. induction s as [|s IH]; intros l; [reflexivity|]. exact (IH (pairup hash l)). Qed.

  Lemma consistency_core (leaves : list bytes) q s seed p r1 : let n := length leaves in let l := map (hash_leaf hash) leaves in
    0 < n -> (2 * q + 1) * 2 ^ s <= n -> 2 * q <= (n - 1) / 2 ^ s -> length seed = hash_size ->
    length p = length (sides n (2 * q) ((n - 1) / 2 ^ s)) ->
    chain_right hash (sides n (2 * q) ((n - 1) / 2 ^ s)) seed p = r1 -> chain hash (sides n (2 * q) ((n - 1) / 2 ^ s)) seed p = log_hash hash leaves ->
    r1 = log_hash hash (firstn ((2 * q + 1) * 2 ^ s) leaves) \/
    collides hash (log_strings hash leaves ++ chain_strings hash (sides n (2 * q) ((n - 1) / 2 ^ s)) seed p).
  Proof.
    intros n l Hn Hle Hq Ls Lp H1 H2. rewrite <- (level_root leaves s Hn) in H2. fold l n in H2.
    destruct (chain_sound hash Hlen n (2 * q) ((n - 1) / 2 ^ s) (up hash s l) seed p) as [[E1 E2]|C].
    - apply (level_length leaves), Hn.
    - exact Hq.
    - apply (level_bound' leaves), Hn.
    - apply up_sized; [exact Hlen|]. apply leaf_sized. exact Hlen.
    - exact Lp.
    - left. exact Ls.
    - exact H2.
    - left. apply (right_nodes leaves q s seed p); auto.
    - right. apply (collision_collides _ _ _ C).
      + apply incl_appl, level_strings.
      + apply incl_appr, incl_refl.
  Qed.

  Lemma same_root (l1 l2 : list bytes) : length l1 = length l2 -> log_hash hash l1 = log_hash hash l2 ->
    l1 = l2 \/ collides hash (log_strings hash l1 ++ log_strings hash l2).
  Proof.
    intros L E. destruct (Nat.eq_dec (length l1) 0) as [Z|Z].
    { left. destruct l1; [|discriminate]. destruct l2; [reflexivity|discriminate]. }
    assert (B := pow_big (length l1)). rewrite (log_root_eq l1 (length l1)), (log_root_eq l2 (length l1)) in E by lia.
    destruct (root_inj hash Hlen (length l1) (map (hash_leaf hash) l1) (map (hash_leaf hash) l2)) as [Q|C].
    - rewrite !map_length. exact L.
    - rewrite map_length. exact B.
    - apply leaf_sized. exact Hlen.
    - apply leaf_sized. exact Hlen.
    - exact E.
    - clear E B Z. assert (G : l1 = l2 \/ collides hash (map (fun d => x00 :: d) l1 ++ map (fun d => x00 :: d) l2)).
      { revert l2 L Q. induction l1 as [|a l1 IH]; intros [|b l2] L Q; try discriminate; [auto|]. injection L as L. cbn [map] in Q. inversion Q as [[Q1 Q2]].
        destruct (bytes_dec a b) as [->|N].
        - destruct (IH l2 L Q2) as [->|C]; [auto|]. right. apply (collides_mono _ _ C). intros x Hx. apply in_app_or in Hx. apply in_or_app.
          destruct Hx as [Hx|Hx]; [left|right]; right; exact Hx.
        - right. exists (x00 :: a), (x00 :: b). split; [left; reflexivity|]. split; [apply in_or_app; right; left; reflexivity|]. split; [congruence|exact Q1]. }
      destruct G as [->|C]; [auto|]. right. apply (collides_mono _ _ C). unfold log_strings. intros x Hx. rewrite !in_app_iff. apply in_app_or in Hx. tauto.
    - right. apply (collision_collides _ _ _ C).
      + apply incl_appl. unfold log_strings. apply incl_appr, strings_tree; rewrite map_length; lia.
      + apply incl_appr. unfold log_strings. apply incl_appr, strings_tree; rewrite map_length; lia.
  Qed.

  Lemma consistency_both (l1 l2 : list bytes) proof : let n1 := N.of_nat (length l1) in let n2 := N.of_nat (length l2) in
    0 < length l1 -> verify_consistency hash n1 n2 proof (log_hash hash l1) (log_hash hash l2) = VOk ->
    l1 = firstn (length l1) l2 \/
    collides hash (log_strings hash l1 ++ log_strings hash l2 ++ consistency_strings hash n1 n2 proof (log_hash hash l1) ++
                   consistency_strings_right hash n1 n2 proof (log_hash hash l1) ++ log_strings hash (firstn (length l1) l2)).
  Proof.
    intros n1 n2 H0 H. destruct (Nat.lt_trichotomy (length l1) (length l2)) as [Hlt|[He|Hgt]].
    - assert (Hn : 0 < length l2) by lia.
      destruct (consistency_nat (length l1) (length l2) ltac:(lia) proof (log_hash hash l1) (log_hash hash l2)) as (q & s & E & Lt & V & ST).
      destruct (strings_right_nat (length l1) (length l2) proof (log_hash hash l1) ltac:(lia)) as (q' & s' & E' & SR).
      destruct (odd_part q s q' s') as [<- <-]; [congruence|].
      apply V in H. clear V. destruct H as (seed & p & Hs & Lp & H1 & H2).
      fold n1 n2 in ST, SR. specialize (ST seed p Hs Lp). specialize (SR seed p Hs Lp). rewrite ST, SR. clear ST SR E'.
      set (last := (length l2 - 1) / 2 ^ s) in *. set (ss := sides (length l2) (2 * q) last) in *.
      assert (KEY : length seed = hash_size \/
        collides hash (log_strings hash l1 ++ log_strings hash l2 ++ chain_strings hash ss seed p ++ chain_strings hash (filter is_right ss) seed (pick ss p))).
      { destruct Hs as [(_ & -> & _)|(Q & _)].
        { left. unfold log_hash. apply tree_hash_length; [apply leaf_sized; exact Hlen|rewrite map_length; exact H0]. }
        unfold ss in *. assert (B2 := level_bound' l2 s Hn). assert (LR := level_root l2 s Hn). assert (LL := level_length l2 s Hn).
        assert (LS := level_strings l2 s).
        set (L2 := up hash s (map (hash_leaf hash) l2)) in *. fold last in B2, LL.
        destruct (length l2) as [|f] eqn:EN; [lia|]. assert (O : Nat.odd (2 * q) = false) by (replace (2 * q) with (0 + 2 * q) by lia; rewrite Nat.odd_add_mul_2; reflexivity).
        cbn [sides] in *. rewrite O in *. rewrite (proj2 (Nat.ltb_lt _ _) Lt) in *. cbn [app] in *.
        assert (HQ : 2 * q / 2 = q) by (symmetry; apply (Nat.div_unique _ 2 q 0); lia). rewrite HQ in *.
        destruct p as [|h0 p1]; [discriminate|]. injection Lp as Lp. cbn [chain chain_right filter is_right pick chain_strings] in *.
        set (ss1 := sides f q (last / 2)) in *.
        destruct (chain_sound hash Hlen f q (last / 2) (pairup hash L2) (node seed h0) p1) as [[_ E2]|C].
        - apply pairup_last, LL.
        - rewrite <- HQ. apply half_le. lia.
        - apply half_lt, B2.
        - apply pairup_sized; [exact Hlen|]. apply up_sized; [exact Hlen|]. apply leaf_sized. exact Hlen.
        - exact Lp.
        - left. apply Hlen.
        - change (root hash (S f) L2) with (root hash f (pairup hash L2)) in LR. rewrite LR. exact H2.
        - (* the nodes after the first are the right ones *)
          assert (Lpk : length (pick ss1 p1) = length (sides f q q)) by (rewrite pick_length by exact Lp; unfold ss1; rewrite filter_sides; reflexivity).
          assert (Z1 : forall x, In x (pick ss1 p1) -> length x = hash_size).
          { intros x Hx. apply pick_in in Hx. rewrite E2 in Hx. apply (path_sized f (pairup hash L2) q (last / 2) x); [|rewrite <- HQ; apply half_le; lia|apply half_lt, B2| |exact Hx].
            - apply pairup_last, LL.
            - apply pairup_sized; [exact Hlen|]. apply up_sized; [exact Hlen|]. apply leaf_sized. exact Hlen. }
          rewrite chain_right_filter in H1 by exact Lp.
          assert (FS : filter is_right ss1 = sides f q q) by apply filter_sides. rewrite FS in *.
          (* the first log, at the level above the seed *)
          set (m1 := map (hash_leaf hash) l1). assert (M1 : length m1 = (2 * q + 1) * 2 ^ s) by (unfold m1; rewrite map_length; exact E).
          assert (U1 : length (up hash s m1) = S (2 * q)) by (rewrite (up_length_pow s (2 * q + 1)); lia).
          assert (U2 : length (up hash (S s) m1) = S q) by (rewrite up_step, (pairup_last hash _ _ U1), HQ; reflexivity).
          assert (Bq : q < 2 ^ f) by (apply Nat.le_lt_trans with (last / 2); [rewrite <- HQ; apply half_le; lia|apply half_lt, B2]).
          assert (R1 : log_hash hash l1 = root hash f (up hash (S s) m1)).
          { rewrite (log_root_eq l1 (S s + f)); [apply root_up|exact H0|]. rewrite E.
            (* q + 1 <= 2 ^ f *) assert (X : (2 * q + 1) * 2 ^ s <= (2 * 2 ^ f) * 2 ^ s) by (apply Nat.mul_le_mono_r; lia).
            rewrite Nat.pow_add_r. cbn [Nat.pow]. lia. }
          rewrite R1 in H1.
          destruct (chain_sound hash Hlen f q q (up hash (S s) m1) seed (pick ss1 p1)) as [[E1 _]|C].
          + exact U2.
          + lia.
          + exact Bq.
          + apply up_sized; [exact Hlen|]. apply leaf_sized. exact Hlen.
          + exact Lpk.
          + right. destruct (pick ss1 p1) as [|h r] eqn:EP; [|exists h, r; split; [reflexivity|apply Z1; left; reflexivity]]. exfalso.
            rewrite (sides_same f q q Bq eq_refl), repeat_length in Lpk. cbn [length] in Lpk.
            assert (T : ones_count (N.of_nat q) <> 0); [|congruence].
            destruct (N.of_nat q) as [|b] eqn:EB; [lia|]. clear. cbn [ones_count]. induction b; cbn [ones_pos]; congruence.
          + exact H1.
          + left. rewrite E1. apply sized_nth; [|lia]. apply up_sized; [exact Hlen|]. apply leaf_sized. exact Hlen.
          + right. apply (collision_collides _ _ _ C).
            * apply incl_appl. unfold log_strings. apply incl_appr. eapply incl_tran; [apply strings_up|]. apply strings_tree; [unfold m1; rewrite map_length; lia|].
              unfold m1. rewrite map_length, E. assert (X : (2 * q + 1) * 2 ^ s <= (2 * 2 ^ f) * 2 ^ s) by (apply Nat.mul_le_mono_r; lia).
              rewrite Nat.pow_add_r. cbn [Nat.pow]. lia.
            * do 3 apply incl_appr. apply incl_refl.
        - right. apply (collision_collides _ _ _ C).
          + apply incl_appr, incl_appl. eapply incl_tran; [|exact LS]. cbn [strings]. apply incl_appr, incl_refl.
          + apply incl_appr, incl_appr, incl_appl. apply incl_tl, incl_refl. }
      destruct KEY as [Ls|C].
      2:{ right. apply (collides_mono _ _ C). intros x Hx. rewrite !in_app_iff in *. tauto. }
      destruct (consistency_core l2 q s seed p (log_hash hash l1)) as [R|C]; try assumption; try lia.
      + rewrite <- E in R. destruct (same_root l1 (firstn (length l1) l2)) as [Q|C].
        * symmetry. apply firstn_length_le. lia.
        * exact R.
        * left. exact Q.
        * right. apply (collides_mono _ _ C). intros x Hx. rewrite !in_app_iff in *. tauto.
      + right. apply (collides_mono _ _ C). intros x Hx. rewrite !in_app_iff. apply in_app_or in Hx. unfold ss, last. tauto.
    - unfold verify_consistency in H. unfold n1, n2 in *. rewrite He, N.ltb_irrefl, N.eqb_refl in H. destruct proof; [|discriminate].
      apply verify_match_ok in H. destruct (same_root l1 l2 He H) as [<-|C].
      + left. symmetry. apply firstn_all.
      + right. apply (collides_mono _ _ C). intros x Hx. rewrite !in_app_iff in *. tauto.
    - exfalso. unfold verify_consistency in H. rewrite (proj2 (N.ltb_lt _ _)) in H by (unfold n1, n2; lia). discriminate.
  Qed.

  (** * VerifyRoot and VerifyInclusionWithPrevLogRoot *)
  Lemma verify_root_ok t n proof : verify_root hash (Some t) (Some n) proof = VOk <->
    tree_size t = 0%N \/ verify_consistency hash (tree_size t) (tree_size n) proof (root_hash t) (root_hash n) = VOk.
  Proof.
    unfold verify_root. destruct (N.eqb_spec (tree_size t) 0) as [E|E]; [tauto|].
    destruct (verify_consistency _ _ _ _ _ _); split; try tauto; try discriminate; intros [H|H]; try contradiction; discriminate.
  Qed.

  Lemma with_prev_sound (leaves : list bytes) t consistency d proofs : let n := N.of_nat (length leaves) in
    Forall (fun h => length h = hash_size) consistency ->
    verify_with_prev hash (Some t) (Some (mk_root n (log_hash hash leaves))) consistency (hash_leaf hash d) proofs = VOk ->
    (N.to_nat (tree_size t) <= length leaves /\ In d (firstn (N.to_nat (tree_size t)) leaves)) \/
    collides hash ((x00 :: d) :: log_strings hash leaves ++ log_strings hash (firstn (N.to_nat (tree_size t)) leaves) ++
                   consistency_strings hash (tree_size t) n consistency (root_hash t) ++ proofs_strings hash (tree_size t) (hash_leaf hash d) proofs).
  Proof.
    intros n Z H. unfold verify_with_prev in H. destruct (verify_inclusion_by_hash hash (Some t) (hash_leaf hash d) proofs) eqn:V; try discriminate.
    apply verify_root_ok in H. cbn [tree_size root_hash] in H.
    assert (T0 : (0 < tree_size t)%N).
    { cbn [verify_inclusion_by_hash] in V. apply verify_proofs_ok in V. destruct V as (p & _ & V). apply verify_inclusion_ok in V. lia. }
    destruct H as [H|H]; [lia|]. set (n1 := N.to_nat (tree_size t)) in *. assert (ET : tree_size t = N.of_nat n1) by lia. rewrite ET in *.
    destruct (consistency_sound leaves n1 consistency (root_hash t)) as [[Hle R]|C]; [lia|exact Z|exact H| |].
    - assert (LF : length (firstn n1 leaves) = n1) by (apply firstn_length_le; exact Hle).
      destruct (by_hash_sound (firstn n1 leaves) d proofs) as [I|C].
      + rewrite LF, <- R, <- ET. destruct t. exact V.
      + left. auto.
      + right. apply (collides_mono _ _ C). rewrite LF. intros x [<-|Hx]; [left; reflexivity|]. right. rewrite !in_app_iff in *. tauto.
    - right. apply (collides_mono _ _ C). intros x Hx. right. rewrite !in_app_iff in *. tauto.
  Qed.

  Lemma with_prev_complete (leaves : list bytes) n1 m d more : m < n1 -> n1 <= length leaves -> (Z.of_nat m < 2 ^ 63)%Z -> d = nth m leaves [] ->
    verify_with_prev hash (Some (mk_root (N.of_nat n1) (log_hash hash (firstn n1 leaves)))) (Some (mk_root (N.of_nat (length leaves)) (log_hash hash leaves)))
      (consistency_path hash n1 leaves) (hash_leaf hash d) (Some (mk_proof (Z.of_nat m) (inclusion_path hash m (firstn n1 leaves))) :: more) = VOk.
  Proof.
    intros Hm Hn H63 ->. unfold verify_with_prev. assert (LF : length (firstn n1 leaves) = n1) by (apply firstn_length_le; exact Hn).
    assert (I : verify_inclusion_by_hash hash (Some (mk_root (N.of_nat n1) (log_hash hash (firstn n1 leaves)))) (hash_leaf hash (nth m leaves []))
      (Some (mk_proof (Z.of_nat m) (inclusion_path hash m (firstn n1 leaves))) :: more) = VOk).
    { cbn [verify_inclusion_by_hash verify_proofs tree_size root_hash leaf_index hashes].
      replace (to_uint64 (Z.of_nat m)) with (N.of_nat m) by (unfold to_uint64; rewrite Z.mod_small by lia; lia).
      assert (V := inclusion_complete (firstn n1 leaves) m (nth m leaves [])). rewrite LF in V. rewrite V; [reflexivity|exact Hm|].
      rewrite <- (firstn_skipn n1 leaves) at 1. apply app_nth1. lia. }
    rewrite I. apply verify_root_ok. right. apply consistency_complete. lia.
  Qed.
End Results.
