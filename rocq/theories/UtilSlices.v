(** Proofs for the slice removal helpers. *)
From Coq Require Import Permutation Sorted.
From Verif Require Import Base BaseLemmas UtilModel UtilSort.

(** The elements at the positions not listed. *)
Definition kept {A} (d : A) (idx : list nat) (l : list A) : list A :=
  map (fun p => nth p l d) (filter (fun p => negb (existsb (Nat.eqb p) idx)) (seq 0 (length l))).

Section RemoveElem.
  Context {A : Type}.
  Variable d : A.

  Lemma remove_elem_ok (l : list A) i : i < length l -> Permutation (remove_elem d l i) (firstn i l ++ skipn (S i) l).
  Proof.
    intros Hi. destruct (split_at d i l Hi) as (a & b & Hl & Ha). set (x := nth i l d) in *. clearbody x. subst l.
    rewrite (firstn_app_exact a) by exact Ha.
    replace (skipn (S i) (a ++ x :: b)) with b.
    2:{ replace (a ++ x :: b) with ((a ++ [x]) ++ b) by (rewrite <- app_assoc; reflexivity).
        symmetry. apply skipn_app_exact. rewrite app_length. cbn. lia. }
    unfold remove_elem. destruct b as [|y b] using rev_ind.
    - rewrite app_length. cbn [length]. replace (length a + 1 - 1) with i by lia.
      rewrite set_nth_split by exact Ha. rewrite app_nil_r. rewrite (firstn_app_exact a) by exact Ha. reflexivity.
    - clear IHb. rewrite app_length. cbn [length]. rewrite app_length. cbn [length].
      replace (length a + S (length b + 1) - 1) with (length (a ++ x :: b)) by (rewrite app_length; cbn [length]; lia).
      replace (a ++ x :: b ++ [y]) with ((a ++ x :: b) ++ [y]) by (rewrite <- app_assoc; reflexivity).
      rewrite (nth_split_eq d (length (a ++ x :: b))) by reflexivity. rewrite <- app_assoc. cbn [app].
      rewrite set_nth_split by exact Ha.
      replace (a ++ y :: b ++ [y]) with ((a ++ y :: b) ++ [y]) by (rewrite <- app_assoc; reflexivity).
      rewrite firstn_app_exact by (rewrite !app_length; reflexivity).
      apply Permutation_app_head. apply Permutation_cons_append.
  Qed.
End RemoveElem.

Section RemoveElements.
  Context {A : Type}.
  Variable d : A.
  Variable idx : list nat.
  Variable l0 : list A.
  Notation n := (length l0).
  Notation k := (length idx).
  Notation f := (fun a => nth a idx 0).
  Hypothesis Hinc : forall a b, a < b < k -> f a < f b.
  Hypothesis Hrange : forall a, a < k -> f a < n.
  Hypothesis Hlt : k < n.

  Definition free (p : nat) : bool := negb (existsb (Nat.eqb p) idx).
  Lemma free_false p : free p = false <-> exists a, a < k /\ f a = p.
  Proof.
    unfold free. rewrite negb_false_iff, existsb_exists. split.
    - intros (x & Hx & Hq). apply Nat.eqb_eq in Hq. subst x. apply (In_nth _ _ 0) in Hx. exact Hx.
    - intros (a & Ha & <-). exists (f a). split; [apply nth_In; exact Ha | apply Nat.eqb_refl].
  Qed.
  Lemma free_true p : (forall a, a < k -> f a <> p) -> free p = true.
  Proof.
    intros Hf. destruct (free p) eqn:Hq; [reflexivity|]. apply free_false in Hq as (a & Ha & He). destruct (Hf a Ha He).
  Qed.
  Lemma f_mono a b : a <= b -> b < k -> f a <= f b.
  Proof. intros Hab Hb. destruct (Nat.eq_dec a b) as [->|]; [lia|]. specialize (Hinc a b ltac:(lia)). cbv beta in *. lia. Qed.
  Lemma f_gap a b : a <= b -> b < k -> f a + (b - a) <= f b.
  Proof.
    induction 1 as [|b Hab IH]; intros Hb; [lia|]. specialize (IH ltac:(lia)). specialize (Hinc b (S b) ltac:(lia)). cbv beta in *. lia.
  Qed.

  Definition frees (lo len : nat) : list A := map (fun p => nth p l0 d) (filter free (seq lo len)).

  Record Inv (i j1 t1 : nat) (c : list A) : Prop := {
    inv_t : t1 = n - k - i + j1;
    inv_j : j1 <= k;
    inv_i : i <= n - k;
    inv_hi : forall a, j1 <= a < k -> t1 <= f a;
    inv_lo : forall a, a < j1 -> f a < t1;
    inv_len : length c = n;
    inv_same : forall p, (forall a, a < i -> p <> f a) -> nth p c d = nth p l0 d;
    inv_perm : Permutation (map (fun p => nth p c d) (firstn i idx)) (frees t1 (n - t1));
  }.

  Lemma find_stay_ok fuel : forall i j1 t1 c, i <= j1 -> j1 - i < fuel -> Inv i j1 t1 c ->
    exists j1' t1', find_stay fuel idx (Z.of_nat i) (Z.of_nat j1 - 1) (Z.of_nat t1 - 1) = (Z.of_nat j1' - 1, Z.of_nat t1' - 1)%Z /\
      i <= j1' <= j1 /\ Inv i j1' t1' c /\ (j1' = i \/ (i < j1' /\ f (j1' - 1) < t1' - 1)).
  Proof.
    induction fuel as [|fuel IH]; intros i j1 t1 c Hij Hf HI; [lia|]. cbn [find_stay].
    destruct (Z.ltb_spec (Z.of_nat j1 - 1) (Z.of_nat i)) as [Hj|Hj].
    { exists j1, t1. split; [reflexivity|]. split; [lia|]. split; [exact HI | left; lia]. }
    pose proof (inv_j _ _ _ _ HI) as Hjk. pose proof (inv_lo _ _ _ _ HI (j1 - 1) ltac:(lia)) as Hlo. cbv beta in Hlo.
    unfold znth. replace (Z.to_nat (Z.of_nat j1 - 1)) with (j1 - 1) by lia.
    destruct (Z.ltb_spec (Z.of_nat (nth (j1 - 1) idx 0)) (Z.of_nat t1 - 1)) as [Hc|Hc].
    { exists j1, t1. split; [reflexivity|]. split; [lia|]. split; [exact HI|]. right. lia. }
    assert (Heq : f (j1 - 1) = t1 - 1) by (cbv beta; lia).
    replace (Z.of_nat j1 - 1 - 1)%Z with (Z.of_nat (j1 - 1) - 1)%Z by lia.
    replace (Z.of_nat t1 - 1 - 1)%Z with (Z.of_nat (t1 - 1) - 1)%Z by lia.
    destruct (IH i (j1 - 1) (t1 - 1) c ltac:(lia) ltac:(lia)) as (j' & t' & Hfs & Hr & HI' & Hor).
    - destruct HI as [H1 H2 H3 H4 H5 H6 H7 H8]. constructor; auto; try lia.
      + intros a Ha. destruct (Nat.eq_dec a (j1 - 1)) as [->|]; [cbv beta in *; lia|]. specialize (H4 a ltac:(lia)). cbv beta in *. lia.
      + intros a Ha. specialize (Hinc a (j1 - 1) ltac:(lia)). cbv beta in *. lia.
      + rewrite H8. unfold frees. replace (n - (t1 - 1)) with (S (n - t1)).
        2:{ specialize (Hrange (j1 - 1) ltac:(lia)). cbv beta in *. lia. }
        cbn [seq filter]. assert (Hfr : free (t1 - 1) = false) by (apply free_false; exists (j1 - 1); split; [lia | exact Heq]).
        rewrite Hfr. replace (S (t1 - 1)) with t1 by lia. reflexivity.
    - exists j', t'. split; [exact Hfs|]. split; [lia|]. split; assumption.
  Qed.

  Lemma firstn_idx_S i : i < k -> firstn (S i) idx = firstn i idx ++ [f i].
  Proof.
    clear. revert i. induction idx as [|x xs IH]; intros i Hi; [cbn in Hi; lia|]. destruct i as [|i]; [reflexivity|].
    cbn [firstn nth app]. f_equal. apply IH. cbn in Hi. lia.
  Qed.
  Lemma nth_firstn_idx i z : z < i -> i <= k -> nth z (firstn i idx) 0 = f z.
  Proof.
    intros Hz Hi. cbv beta. rewrite <- (firstn_skipn i idx) at 2. rewrite app_nth1 by (rewrite firstn_length; lia). reflexivity.
  Qed.
  Lemma In_firstn_idx i p : In p (firstn i idx) <-> exists a, a < i /\ a < k /\ f a = p.
  Proof.
    clear. revert i. induction idx as [|x xs IH]; intros [|i]; cbn [firstn In length]; try (split; [intros [] | intros (a & ? & ? & ?); lia]).
    rewrite IH. split.
    - intros [->|(a & Ha & Hk & Hq)]; [exists 0; cbn; split; [lia | split; [lia | reflexivity]]|]. exists (S a). cbn [nth]. split; [lia|]. split; [lia | exact Hq].
    - intros (a & Ha & Hk & Hq). destruct a as [|a]; [left; exact Hq|]. right. exists a. cbn [nth] in Hq. split; [lia|]. split; [lia | exact Hq].
  Qed.

  Lemma filter_split {B : Type} (g : B -> bool) (l : list B) : Permutation l (filter g l ++ filter (fun x => negb (g x)) l).
  Proof.
    induction l as [|x l IH]; [reflexivity|]. cbn [filter]. destruct (g x); cbn [negb app].
    - apply perm_skip. exact IH.
    - rewrite <- Permutation_middle. apply perm_skip. exact IH.
  Qed.
  Lemma firstn_map_seq (c : list A) m : m <= length c -> firstn m c = map (fun p => nth p c d) (seq 0 m).
  Proof.
    intros Hm. apply (nth_ext _ _ d d).
    - rewrite firstn_length, map_length, seq_length. lia.
    - intros p Hp. rewrite firstn_length in Hp. rewrite (nth_indep (map (fun p => nth p c d) (seq 0 m)) d (nth 0 c d)) by (rewrite map_length, seq_length; lia).
      rewrite (map_nth (fun p => nth p c d) (seq 0 m) 0 p), seq_nth by lia. cbn [Nat.add].
      rewrite <- (firstn_skipn m c) at 2. rewrite app_nth1 by (rewrite firstn_length; lia). reflexivity.
  Qed.

  (** At the end. *)
  Lemma inv_exit i j1 t1 c : Inv i j1 t1 c -> i <= j1 -> (j1 = i \/ i = n - k) ->
    Permutation (firstn (n - k) c) (kept d idx l0).
  Proof.
    intros HI Hij Hor. pose proof HI as [H1 H2 H3 H4 H5 H6 H7 H8].
    assert (Hk : kept d idx l0 = frees 0 n) by reflexivity. rewrite Hk.
    destruct (Nat.eq_dec j1 i) as [->|Hne].
    - assert (Ht : t1 = n - k) by lia. clear Hor Hij. rewrite firstn_map_seq by lia.
      rewrite (filter_split free (seq 0 (n - k))) at 1. rewrite map_app.
      assert (Hs : seq 0 n = seq 0 (n - k) ++ seq (n - k) k) by (rewrite <- seq_app; f_equal; lia).
      unfold frees. rewrite Hs, filter_app, map_app. apply Permutation_app.
      + apply Permutation_refl'. apply map_ext_in. intros p Hp. apply filter_In in Hp as [Hp Hf].
        apply H7. intros a Ha Hq. assert (free p = false) by (apply free_false; exists a; split; [lia | auto]). congruence.
      + unfold frees in H8. rewrite Ht in H8. replace (n - (n - k)) with k in H8 by lia. rewrite <- H8.
        apply Permutation_map. apply NoDup_Permutation.
        * apply NoDup_filter. apply seq_NoDup.
        * apply (NoDup_nth _ 0). intros a b Ha Hb Hq. rewrite firstn_length in Ha, Hb.
          rewrite !nth_firstn_idx in Hq by lia. destruct (Nat.lt_trichotomy a b) as [Hl|[->|Hl]]; [|reflexivity|].
          -- specialize (Hinc a b ltac:(lia)). cbv beta in *. lia.
          -- specialize (Hinc b a ltac:(lia)). cbv beta in *. lia.
        * intros p. rewrite filter_In, in_seq, negb_true_iff, free_false, In_firstn_idx. split.
          -- intros (Hp & a & Ha & Hq). exists a. split; [|auto].
             destruct (Nat.lt_ge_cases a i) as [|Hge]; [assumption|]. specialize (H4 a ltac:(lia)). cbv beta in *. lia.
          -- intros (a & Ha & Hak & Hq). split; [|eauto]. specialize (H5 a Ha). cbv beta in *. lia.
    - destruct Hor as [|Hi]; [contradiction|].
      assert (Hfa : forall a, a < j1 -> f a = a).
      { intros a Ha. pose proof (f_gap a (j1 - 1) ltac:(lia) ltac:(lia)) as Hg. pose proof (f_gap 0 a ltac:(lia) ltac:(lia)) as Hg0.
        specialize (H5 (j1 - 1) ltac:(lia)). cbv beta in *. lia. }
      assert (Hfi : firstn i idx = seq 0 i).
      { apply (nth_ext _ _ 0 0).
        - rewrite firstn_length, seq_length. lia.
        - intros z Hz. rewrite firstn_length in Hz. rewrite seq_nth by lia. cbn [Nat.add].
          rewrite nth_firstn_idx by lia. apply Hfa. lia. }
      rewrite Hfi in H8. rewrite <- Hi. rewrite firstn_map_seq by lia. rewrite H8. unfold frees.
      assert (Hs : seq 0 n = seq 0 t1 ++ seq t1 (n - t1)) by (rewrite <- seq_app; f_equal; lia).
      rewrite Hs, filter_app. replace (filter free (seq 0 t1)) with (@nil nat); [reflexivity|].
      symmetry. destruct (filter free (seq 0 t1)) as [|p ps] eqn:Hq; [reflexivity|]. exfalso.
      assert (Hin : In p (filter free (seq 0 t1))) by (rewrite Hq; left; reflexivity).
      apply filter_In in Hin as [Hin Hfr]. apply in_seq in Hin.
      assert (free p = false) by (apply free_false; exists p; split; [lia | apply Hfa; lia]). congruence.
  Qed.

  Lemma remove_loop_ok fuel : forall i j1 t1 c, i <= j1 -> n - k - i <= fuel -> Inv i j1 t1 c ->
    Permutation (firstn (n - k) (remove_loop d fuel idx (Z.of_nat i) (Z.of_nat j1 - 1) (Z.of_nat t1 - 1) c)) (kept d idx l0).
  Proof.
    induction fuel as [|fuel IH]; intros i j1 t1 c Hij Hf HI.
    { cbn [remove_loop]. eapply inv_exit; eauto. right. pose proof (inv_i _ _ _ _ HI). lia. }
    cbn [remove_loop]. rewrite (inv_len _ _ _ _ HI).
    destruct (Z.leb_spec (Z.of_nat i) (Z.of_nat j1 - 1)) as [Hle|Hle].
    2:{ cbn [andb]. eapply inv_exit; eauto. left. lia. }
    destruct (Z.ltb_spec (Z.of_nat i) (Z.of_nat n - Z.of_nat k)) as [Hl|Hl].
    2:{ cbn [andb]. eapply inv_exit; eauto. right. pose proof (inv_i _ _ _ _ HI). lia. }
    cbn [andb]. pose proof (inv_j _ _ _ _ HI) as Hjk.
    destruct (find_stay_ok (S k) i j1 t1 c Hij ltac:(lia) HI) as (j1' & t1' & -> & Hr & HI' & Hor). cbv iota zeta.
    pose proof HI' as [H1 H2 H3 H4 H5 H6 H7 H8].
    unfold znth. rewrite !Nat2Z.id. replace (Z.to_nat (Z.of_nat t1' - 1)) with (t1' - 1) by lia.
    destruct Hor as [Hj|[Hj Hft]].
    - (* nothing left to move: the write is behind the cut *)
      subst j1'. replace (remove_loop d fuel idx (Z.of_nat i + 1) (Z.of_nat i - 1) (Z.of_nat t1' - 1 - 1) _)
        with (set_nth (nth i idx 0) (nth (t1' - 1) c d) c).
      2:{ destruct fuel; cbn [remove_loop]; [reflexivity|].
          destruct (Z.leb_spec (Z.of_nat i + 1) (Z.of_nat i - 1)); [lia | reflexivity]. }
      specialize (H4 i ltac:(lia)). cbv beta in H4.
      assert (Hfn : firstn (n - k) (set_nth (nth i idx 0) (nth (t1' - 1) c d) c) = firstn (n - k) c).
      { rewrite !firstn_map_seq by (rewrite ?set_nth_length; lia). apply map_ext_in. intros p Hp. apply in_seq in Hp.
        rewrite nth_set_in by (specialize (Hrange i ltac:(lia)); cbv beta in *; lia).
        destruct (Nat.eqb_spec p (nth i idx 0)); [lia | reflexivity]. }
      rewrite Hfn. eapply inv_exit; [exact HI' | lia | auto].
    - replace (Z.of_nat i + 1)%Z with (Z.of_nat (S i)) by lia.
      replace (Z.of_nat t1' - 1 - 1)%Z with (Z.of_nat (t1' - 1) - 1)%Z by lia.
      apply IH; [lia | lia|].
      assert (Hfree : forall a, a < k -> f a <> t1' - 1).
      { intros a Ha. destruct (Nat.lt_ge_cases a j1') as [Hlt'|Hge].
        - pose proof (f_mono a (j1' - 1) ltac:(lia) ltac:(lia)). cbv beta in *. lia.
        - specialize (H4 a ltac:(lia)). cbv beta in *. lia. }
      assert (Hfi : nth i idx 0 < t1' - 1).
      { pose proof (f_mono i (j1' - 1) ltac:(lia) ltac:(lia)). cbv beta in *. lia. }
      constructor; auto; try lia.
      + intros a Ha. specialize (H4 a Ha). lia.
      + intros a Ha. pose proof (f_mono a (j1' - 1) ltac:(lia) ltac:(lia)). cbv beta in *. lia.
      + rewrite set_nth_length. exact H6.
      + intros p Hp. rewrite nth_set_in by lia. destruct (Nat.eqb_spec p (nth i idx 0)) as [Hq|Hq].
        * exfalso. apply (Hp i); [lia | exact Hq].
        * apply H7. intros a Ha. apply Hp. lia.
      + rewrite firstn_idx_S by lia. rewrite map_app. cbn [map].
        rewrite nth_set_in by lia. rewrite Nat.eqb_refl.
        rewrite (H7 (t1' - 1)) by (intros a Ha; apply not_eq_sym; apply Hfree; lia).
        replace (map (fun p => nth p (set_nth (nth i idx 0) (nth (t1' - 1) l0 d) c) d) (firstn i idx))
          with (map (fun p => nth p c d) (firstn i idx)).
        2:{ apply map_ext_in. intros p Hp. apply In_firstn_idx in Hp as (a & Ha & Hak & <-). rewrite nth_set_in by lia.
            destruct (Nat.eqb_spec (nth a idx 0) (nth i idx 0)) as [Hq|]; [|reflexivity].
            specialize (Hinc a i ltac:(lia)). cbv beta in *. lia. }
        rewrite H8. unfold frees. replace (n - (t1' - 1)) with (S (n - t1')) by lia. cbn [seq filter].
        rewrite (free_true _ Hfree). cbn [map]. replace (S (t1' - 1)) with t1' by lia.
        symmetry. apply Permutation_cons_append.
  Qed.

  Lemma remove_elements_lt : Permutation (remove_elements d idx l0) (kept d idx l0).
  Proof.
    unfold remove_elements. destruct (Nat.leb_spec n k); [lia|].
    replace (Z.of_nat n - Z.of_nat k + (Z.of_nat k - 1))%Z with (Z.of_nat n - 1)%Z by lia.
    apply (remove_loop_ok n 0 k n l0); [lia | lia|]. constructor; auto; try lia.
    rewrite Nat.sub_diag. unfold frees. cbn. constructor.
  Qed.
End RemoveElements.

Theorem remove_elements_ok {A} (d : A) (l : list A) idx sorted : NoDup idx -> (forall p, In p idx -> p < length l) ->
  Permutation sorted idx -> StronglySorted Nat.le sorted -> Permutation (remove_elements d sorted l) (kept d idx l).
Proof.
  intros Hnd Hr Hp Hs.
  assert (Hk : kept d idx l = kept d sorted l).
  { unfold kept. f_equal. apply filter_ext. intros p. f_equal. apply eq_true_iff_eq. rewrite !existsb_exists.
    split; intros (x & Hx & Hq); exists x; (split; [|exact Hq]).
    - apply (Permutation_in _ (Permutation_sym Hp)). exact Hx.
    - apply (Permutation_in _ Hp). exact Hx. }
  rewrite Hk.
  assert (Hnd' : NoDup sorted) by (eapply Permutation_NoDup; [apply Permutation_sym; exact Hp | exact Hnd]).
  assert (Hr' : forall p, In p sorted -> p < length l) by (intros p Hi; apply Hr; eapply Permutation_in; eauto).
  destruct (Nat.lt_ge_cases (length sorted) (length l)) as [Hl|Hl].
  - apply remove_elements_lt; auto.
    + intros a b Hab. cut (nth a sorted 0 <= nth b sorted 0 /\ nth a sorted 0 <> nth b sorted 0); [lia|]. split.
      * clear -Hs Hab. revert a b Hab. induction Hs as [|x xs Hs IH Hf]; intros a b Hab; [cbn in Hab; lia|].
        destruct b as [|b]; [lia|]. destruct a as [|a]; cbn [nth].
        -- rewrite Forall_forall in Hf. apply Hf. apply nth_In. cbn in Hab. lia.
        -- apply IH. cbn in Hab. lia.
      * intros Hq. apply (NoDup_nth sorted 0) in Hq; [lia | exact Hnd' | lia | lia].
    + intros a Ha. apply Hr'. apply nth_In. exact Ha.
  - unfold remove_elements. destruct (Nat.leb_spec (length l) (length sorted)); [|lia].
    unfold kept. replace (filter _ (seq 0 (length l))) with (@nil nat); [constructor|].
    symmetry. assert (Hall : incl (seq 0 (length l)) sorted).
    { apply NoDup_length_incl; auto; [rewrite seq_length; lia|]. intros p Hi. apply in_seq. specialize (Hr' p Hi). lia. }
    destruct (filter _ (seq 0 (length l))) as [|p ps] eqn:Hq; [reflexivity|]. exfalso.
    assert (Hin : In p (p :: ps)) by (left; reflexivity). rewrite <- Hq in Hin. apply filter_In in Hin as [Hin Hf].
    apply negb_true_iff in Hf. assert (existsb (Nat.eqb p) sorted = true); [|congruence].
    apply existsb_exists. exists p. split; [apply Hall; exact Hin | apply Nat.eqb_refl].
Qed.
