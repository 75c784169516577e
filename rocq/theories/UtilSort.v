(** Proofs for Qsort and the slice helpers. *)
From Coq Require Import Permutation Sorted.
From Verif Require Import Base BaseLemmas UtilModel.

Section Lists.
  Context {A : Type}.
  Variable d : A.

  Lemma set_nth_split i (x : A) a y b : length a = i -> set_nth i x (a ++ y :: b) = a ++ x :: b.
  Proof. revert i. induction a as [|z a IH]; intros i <-; [reflexivity|]. cbn. f_equal. apply IH. reflexivity. Qed.
  Lemma nth_split_eq i a (y : A) b : length a = i -> nth i (a ++ y :: b) d = y.
  Proof. intros <-. rewrite app_nth2 by lia. rewrite Nat.sub_diag. reflexivity. Qed.
  Lemma split_at i (l : list A) : i < length l -> exists a b, l = a ++ nth i l d :: b /\ length a = i.
  Proof.
    intros Hi. destruct (nth_split l d Hi) as (a & b & Hl & Ha). eauto.
  Qed.

  Lemma nth_set_in i j (x : A) l : i < length l -> nth j (set_nth i x l) d = if Nat.eqb j i then x else nth j l d.
  Proof. intros Hi. rewrite nth_set_nth. apply Nat.ltb_lt in Hi. rewrite Hi, andb_true_r. reflexivity. Qed.

  Lemma swap_same i (l : list A) : i < length l -> swap d i i l = l.
  Proof.
    intros Hi. destruct (split_at i l Hi) as (a & b & Hl & Ha). unfold swap. rewrite Hl at 2 3.
    rewrite (nth_split_eq i a) by exact Ha. rewrite set_nth_split by exact Ha.
    rewrite set_nth_split by exact Ha. symmetry. rewrite Hl at 1. rewrite Hl at 2. rewrite nth_split_eq; auto.
  Qed.
  (** Swapping positions of [x] and [y]. *)
  Lemma swap_split (a : list A) x b y c : swap d (length a) (length a + S (length b)) (a ++ x :: b ++ y :: c) = a ++ y :: b ++ x :: c.
  Proof.
    unfold swap. rewrite (nth_split_eq (length a)) by reflexivity.
    assert (E : a ++ x :: b ++ y :: c = (a ++ x :: b) ++ y :: c) by (rewrite <- app_assoc; reflexivity).
    assert (L : length (a ++ x :: b) = length a + S (length b)) by (rewrite app_length; reflexivity).
    rewrite E at 1. rewrite (nth_split_eq _ (a ++ x :: b)) by exact L.
    rewrite set_nth_split by reflexivity.
    assert (E' : a ++ y :: b ++ y :: c = (a ++ y :: b) ++ y :: c) by (rewrite <- app_assoc; reflexivity).
    rewrite E', set_nth_split by (rewrite app_length; reflexivity). rewrite <- app_assoc. reflexivity.
  Qed.
  Lemma swap_comm i j (l : list A) : i < length l -> j < length l -> swap d i j l = swap d j i l.
  Proof.
    intros Hi Hj. unfold swap. apply (nth_ext _ _ d d).
    - rewrite !set_nth_length. reflexivity.
    - intros k Hk. rewrite !set_nth_length in Hk.
      rewrite !nth_set_in by (rewrite ?set_nth_length; lia).
      destruct (Nat.eqb_spec k j), (Nat.eqb_spec k i); subst; reflexivity.
  Qed.
  Lemma swap_perm i j (l : list A) : i < length l -> j < length l -> Permutation (swap d i j l) l.
  Proof.
    assert (Main : forall i j, i < j -> j < length l -> Permutation (swap d i j l) l).
    { clear i j. intros i j Hij Hj. destruct (split_at i l ltac:(lia)) as (a & b & Hl & Ha).
      assert (Hb : j - S i < length b).
      { rewrite Hl, app_length in Hj. cbn in Hj. lia. }
      destruct (split_at (j - S i) b Hb) as (b1 & c & Hb1 & Lb1).
      set (x := nth i l d) in *. set (y := nth (j - S i) b d) in *. clearbody x y. subst b l.
      assert (Hjl : j = length a + S (length b1)) by lia. rewrite <- Ha, Hjl, swap_split.
      apply Permutation_app_head. apply perm_trans with (y :: x :: b1 ++ c).
      - apply perm_skip. symmetry. apply Permutation_middle.
      - apply perm_trans with (x :: y :: b1 ++ c); [apply perm_swap|]. apply perm_skip. apply Permutation_middle. }
    intros Hi Hj. destruct (Nat.lt_trichotomy i j) as [Hq|[->|Hq]].
    - apply Main; assumption.
    - rewrite swap_same; auto.
    - rewrite swap_comm by assumption. apply Main; assumption.
  Qed.
  Lemma swap_length i j (l : list A) : length (swap d i j l) = length l.
  Proof. unfold swap. rewrite !set_nth_length. reflexivity. Qed.
End Lists.

(** ** Qsort *)
Section Qsort.
  Context {A : Type}.
  Variable d : A.
  Variable ltb : A -> A -> bool.
  Definition ord_le (x y : A) : Prop := ltb y x = false.
  Hypothesis irrefl : forall x, ltb x x = false.
  Hypothesis trans : forall x y z, ltb x y = true -> ltb y z = true -> ltb x z = true.
  Hypothesis total : forall x y, ltb x y = true \/ x = y \/ ltb y x = true.

  Lemma le_trans x y z : ord_le x y -> ord_le y z -> ord_le x z.
  Proof.
    unfold ord_le. intros H1 H2. destruct (ltb z x) eqn:Hq; [|reflexivity]. exfalso.
    destruct (total z y) as [Hc|[Hc|Hc]]; [congruence| |].
    - subst y. congruence.
    - assert (ltb y x = true) by (eapply trans; eauto). congruence.
  Qed.
  Lemma lt_le x y : ltb x y = true -> ord_le x y.
  Proof.
    unfold ord_le. intros Hq. destruct (ltb y x) eqn:Hc; [|reflexivity]. pose proof (trans _ _ _ Hq Hc) as He. rewrite irrefl in He. discriminate.
  Qed.

  (** The partition loop, with the pivot [p] last: [S] smaller, [B] not smaller, [R] not yet seen. *)
  Lemma part_loop_spec p : forall R Sm B,
    Forall (fun x => ltb x p = true) Sm -> Forall (ord_le p) B ->
    exists Sm' B', Permutation (Sm' ++ B') (Sm ++ B ++ R) /\
      Forall (fun x => ltb x p = true) Sm' /\ Forall (ord_le p) B' /\
      part_loop d ltb (length R + 1) (length Sm + length B) (length Sm) (length Sm + length B + length R) (Sm ++ B ++ R ++ [p]) =
      (Sm' ++ B' ++ [p], length Sm').
  Proof.
    induction R as [|x R IH]; intros Sm B HS HB.
    - exists Sm, B. rewrite app_nil_r. split; [reflexivity|]. split; [exact HS|]. split; [exact HB|].
      cbn [length Nat.add part_loop app]. rewrite Nat.add_0_r.
      replace (nth (length Sm + length B) (Sm ++ B ++ [p]) d) with p.
      2:{ rewrite app_assoc. symmetry. apply nth_split_eq. rewrite app_length. reflexivity. }
      rewrite irrefl. reflexivity.
    - cbn [length Nat.add part_loop].
      assert (Hn : nth (length Sm + length B) (Sm ++ B ++ (x :: R) ++ [p]) d = x).
      { rewrite app_assoc. cbn [app]. apply nth_split_eq. rewrite app_length. reflexivity. }
      assert (Hr : nth (length Sm + length B + S (length R)) (Sm ++ B ++ (x :: R) ++ [p]) d = p).
      { replace (Sm ++ B ++ (x :: R) ++ [p]) with ((Sm ++ B ++ x :: R) ++ [p]).
        - apply nth_split_eq. rewrite !app_length. cbn [length]. lia.
        - rewrite <- !app_assoc. reflexivity. }
      rewrite Hn, Hr. destruct (ltb x p) eqn:Hx.
      + destruct B as [|b B].
        * cbn [length app] in *. rewrite !Nat.add_0_r in *.
          rewrite swap_same by (rewrite app_length; cbn; lia).
          specialize (IH (Sm ++ [x]) [] ltac:(apply Forall_app; auto) ltac:(auto)).
          rewrite app_length in IH. cbn [length app] in IH. rewrite Nat.add_0_r in IH.
          destruct IH as (S' & B' & Hp & HS' & HB' & Hl). exists S', B'. rewrite <- app_assoc in Hp. split; [exact Hp|].
          split; [exact HS'|]. split; [exact HB'|].
          rewrite <- app_assoc in Hl. cbn [app] in Hl.
          replace (length Sm + 1 + length R) with (length Sm + S (length R)) in Hl by lia.
          replace (length Sm + 1) with (S (length Sm)) in Hl by lia. exact Hl.
        * cbn [length app].
          replace (swap d (length Sm + S (length B)) (length Sm) (Sm ++ b :: B ++ x :: R ++ [p]))
            with ((Sm ++ [x]) ++ (B ++ [b]) ++ R ++ [p]).
          2:{ rewrite swap_comm by (rewrite app_length; cbn; rewrite app_length; cbn; lia).
              rewrite swap_split. rewrite <- !app_assoc. reflexivity. }
          apply Forall_inv in HB as Hb. apply Forall_inv_tail in HB.
          specialize (IH (Sm ++ [x]) (B ++ [b]) ltac:(apply Forall_app; auto) ltac:(apply Forall_app; auto)).
          rewrite !app_length in IH. cbn [length] in IH.
          destruct IH as (S' & B' & Hp & HS' & HB' & Hl). exists S', B'. split.
          { rewrite Hp. rewrite <- !app_assoc. apply Permutation_app_head. cbn [app].
            rewrite (Permutation_app_comm B (b :: R)). cbn [app].
            rewrite (Permutation_app_comm B (x :: R)). cbn [app]. apply perm_swap. }
          split; [exact HS'|]. split; [exact HB'|].
          replace (length Sm + 1 + (length B + 1)) with (S (length Sm + S (length B))) in Hl by lia.
          replace (S (length Sm + S (length B)) + length R) with (length Sm + S (length B) + S (length R)) in Hl by lia.
          replace (length Sm + 1) with (S (length Sm)) in Hl by lia. exact Hl.
      + specialize (IH Sm (B ++ [x]) HS ltac:(apply Forall_app; auto)). rewrite app_length in IH. cbn [length] in IH.
        destruct IH as (S' & B' & Hp & HS' & HB' & Hl). exists S', B'. split.
        { rewrite Hp. rewrite <- app_assoc. reflexivity. }
        split; [exact HS'|]. split; [exact HB'|]. rewrite <- app_assoc in Hl. cbn [app] in *.
        replace (length Sm + (length B + 1)) with (S (length Sm + length B)) in Hl by lia.
        replace (S (length Sm + length B) + length R) with (length Sm + length B + S (length R)) in Hl by lia. exact Hl.
  Qed.

  Lemma sorted_join lo p hi : Sorted.StronglySorted ord_le lo -> Sorted.StronglySorted ord_le hi ->
    Forall (fun x => ord_le x p) lo -> Forall (ord_le p) hi -> Sorted.StronglySorted ord_le (lo ++ p :: hi).
  Proof.
    intros Hlo Hhi Hl Hh. induction lo as [|x lo IH]; cbn [app].
    - constructor; assumption.
    - inversion Hlo; subst. inversion Hl; subst. constructor; [apply IH; assumption|].
      apply Forall_app. split; [assumption|]. constructor; [assumption|].
      eapply Forall_impl; [|exact Hh]. intros y Hy. eapply le_trans; eauto.
  Qed.
  Lemma Forall_perm {B : Type} (P : B -> Prop) l l' : Permutation l l' -> Forall P l -> Forall P l'.
  Proof. intros Hp Hf. rewrite Forall_forall in *. intros x Hx. apply Hf. eapply Permutation_in; [apply Permutation_sym; exact Hp | exact Hx]. Qed.

  Theorem qsort_ok rnd : forall fuel cnt a, length a <= fuel ->
    exists a' cnt', qsort d ltb rnd fuel cnt a = Some (a', cnt') /\ Permutation a' a /\ Sorted.StronglySorted ord_le a'.
  Proof.
    induction fuel as [|fuel IH]; intros cnt a Hf.
    - destruct a; [|cbn in Hf; lia]. exists [], cnt. split; [reflexivity|]. split; constructor.
    - cbn [qsort]. destruct (Nat.ltb_spec (length a) 2) as [Hs|Hs].
      + exists a, cnt. split; [reflexivity|]. split; [reflexivity|].
        destruct a as [|x [|y a]]; [constructor|repeat constructor|cbn in Hs; lia].
      + set (a1 := swap d (rnd cnt mod length a) (length a - 1) a).
        assert (Hm : rnd cnt mod length a < length a) by (apply Nat.mod_upper_bound; lia).
        assert (Hp1 : Permutation a1 a) by (apply swap_perm; lia).
        assert (Hl1 : length a1 = length a) by apply swap_length.
        assert (Hx : exists R p, a1 = R ++ [p]).
        { destruct (exists_last (l := a1)) as (R & p & Hq); [intros Hq; rewrite Hq in Hl1; cbn in Hl1; lia | eauto]. }
        destruct Hx as (R & p & Ha1). clearbody a1. rewrite Ha1 in *. rewrite app_length in Hl1. cbn [length] in Hl1.
        destruct (part_loop_spec p R [] [] ltac:(constructor) ltac:(constructor)) as (S' & B' & Hp & HS & HB & Hl).
        cbn [length app Nat.add] in Hl, Hp. rewrite Hl1 in Hl. replace (length R) with (length a - 1) in Hl by lia.
        rewrite Hl.
        assert (HLp : length S' + length B' = length a - 1).
        { apply Permutation_length in Hp. rewrite app_length in Hp. lia. }
        assert (Ha3 : exists B2, Permutation B2 B' /\ swap d (length S') (length a - 1) (S' ++ B' ++ [p]) = S' ++ p :: B2).
        { destruct B' as [|b B'].
          - exists []. split; [reflexivity|]. cbn [length] in HLp. replace (length a - 1) with (length S') by lia.
            cbn [app]. apply swap_same. rewrite app_length. cbn. lia.
          - exists (B' ++ [b]). split; [symmetry; apply Permutation_cons_append|].
            cbn [length] in HLp. rewrite <- HLp. cbn [app]. rewrite swap_split. reflexivity. }
        destruct Ha3 as (B2 & HpB & ->). rewrite (nth_split_eq d (length S')) by reflexivity.
        rewrite (firstn_app_exact S') by reflexivity.
        replace (skipn (S (length S')) (S' ++ p :: B2)) with B2.
        2:{ replace (S' ++ p :: B2) with ((S' ++ [p]) ++ B2) by (rewrite <- app_assoc; reflexivity).
            symmetry. apply skipn_app_exact. rewrite app_length. cbn. lia. }
        assert (HlB : length B2 = length B') by (apply Permutation_length; exact HpB).
        destruct (IH (S cnt) S' ltac:(lia)) as (lo & c1 & -> & Hplo & Hslo).
        destruct (IH c1 B2 ltac:(lia)) as (hi & c2 & -> & Hphi & Hshi).
        exists (lo ++ p :: hi), c2. split; [reflexivity|]. split.
        * rewrite Hplo, Hphi, HpB. rewrite <- Hp1, <- Hp. rewrite <- app_assoc. apply Permutation_app_head.
          apply Permutation_cons_append.
        * apply sorted_join; auto.
          -- eapply Forall_perm; [apply Permutation_sym; exact Hplo|]. eapply Forall_impl; [|exact HS].
             intros x Hx. apply lt_le. exact Hx.
          -- eapply Forall_perm; [|exact HB]. rewrite Hphi, HpB. reflexivity.
  Qed.
End Qsort.
