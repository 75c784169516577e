(** Lemmas for HelperModel.v. *)
From Coq Require Import Strings.String.
From Verif Require Import Base BaseLemmas UtilModel DbModel LoadModel PolicyModel JsonText JsonModel HelperModel.
Local Open Scope list_scope.
Local Notation length := List.length.

(** ** Numbers *)
Section Numbers.
  Variable signed : bool.
  Variable bits : Z.
  Hypothesis bits_pos : (0 < bits)%Z.
  Local Notation M := (2 ^ bits)%Z.
  Local Lemma M_pos : (0 < M)%Z. Proof. apply Z.pow_pos_nonneg; lia. Qed.
  Definition in_type (x : Z) : Prop := if signed then (- 2 ^ (bits - 1) <= x < 2 ^ (bits - 1))%Z else (0 <= x < 2 ^ bits)%Z.
  Lemma half : (2 ^ bits = 2 * 2 ^ (bits - 1))%Z.
  Proof. rewrite <- Z.pow_succ_r by lia. f_equal. lia. Qed.
  Lemma keep_in z : in_type (keep signed bits z).
  Proof. pose proof M_pos. pose proof half. unfold in_type, keep. destruct signed; [pose proof (Z.mod_pos_bound (z + 2 ^ (bits - 1)) M H)|pose proof (Z.mod_pos_bound z M H)]; lia. Qed.
  Lemma keep_mod z : ((keep signed bits z) mod M = z mod M)%Z.
  Proof.
    unfold keep. destruct signed; [|apply Z.mod_mod; pose proof M_pos; lia].
    rewrite Zminus_mod_idemp_l. f_equal. lia.
  Qed.
  Lemma keep_eq z z' : (z mod M = z' mod M)%Z -> keep signed bits z = keep signed bits z'.
  Proof. intros E. unfold keep. destruct signed; [|exact E]. f_equal. rewrite Z.add_mod, E, <- Z.add_mod by (pose proof M_pos; lia). reflexivity. Qed.
  Lemma keep_id x : in_type x -> keep signed bits x = x.
  Proof. pose proof half. unfold in_type, keep. destruct signed; intros I; [rewrite Z.mod_small by lia; lia|apply Z.mod_small; lia]. Qed.
  Lemma keep_mul a b : keep signed bits (keep signed bits a * keep signed bits b) = keep signed bits (a * b).
  Proof. apply keep_eq. rewrite Z.mul_mod, !keep_mod, <- Z.mul_mod by (pose proof M_pos; lia). reflexivity. Qed.
  Lemma pow_positive_value x p : in_type x -> pow_positive signed bits x p = keep signed bits (x ^ Zpos p).
  Proof.
    intros I. induction p as [p IH|p IH|]; cbn [pow_positive].
    - rewrite IH. rewrite Pos2Z.inj_xI, Z.pow_add_r, Z.pow_1_r by lia. replace (2 * Zpos p)%Z with (Zpos p + Zpos p)%Z by lia. rewrite Z.pow_add_r by lia.
      rewrite <- (keep_id x I) at 1. rewrite (keep_mul x), keep_mul. f_equal. lia.
    - rewrite IH, keep_mul. rewrite Pos2Z.inj_xO. replace (2 * Zpos p)%Z with (Zpos p + Zpos p)%Z by lia. rewrite Z.pow_add_r by lia. reflexivity.
    - rewrite Z.pow_1_r. symmetry. apply keep_id. exact I.
  Qed.
End Numbers.

(** ** Slices *)
Section Slices.
  Context {T : Type}.
  Implicit Types (l x : list T) (m : memory T).
  Lemma put_spec l : forall i x, i <= length l -> put l i x = firstn i l ++ x ++ skipn (i + length x) l.
  Proof.
    induction l as [|e l IH]; intros i x L.
    - assert (i = 0) by (cbn in L; lia). subst i. reflexivity.
    - destruct i as [|i]; [reflexivity|]. cbn [put firstn app Nat.add skipn]. f_equal. apply IH. cbn in L. lia.
  Qed.
  Lemma put_length l i x : i + length x <= length l -> length (put l i x) = length l.
  Proof. intros L. rewrite put_spec by lia. rewrite !app_length, firstn_length, skipn_length. lia. Qed.
  Lemma put_nth l i x j : i + length x <= length l -> j < i \/ i + length x <= j -> nth_error (put l i x) j = nth_error l j.
  Proof.
    intros L [J|J]; rewrite put_spec by lia.
    - rewrite nth_error_app1 by (rewrite firstn_length; lia). rewrite <- (firstn_skipn i l) at 2. rewrite nth_error_app1 by (rewrite firstn_length; lia). reflexivity.
    - rewrite nth_error_app2 by (rewrite firstn_length; lia). rewrite firstn_length, Nat.min_l by lia. rewrite nth_error_app2 by lia.
      rewrite <- (firstn_skipn (i + length x) l) at 2. rewrite nth_error_app2 by (rewrite firstn_length; lia). rewrite firstn_length, Nat.min_l by lia. f_equal. lia.
  Qed.
  Lemma put_new l i x j : i + length x <= length l -> j < length x -> nth_error (put l i x) (i + j) = nth_error x j.
  Proof.
    intros L J. rewrite put_spec by lia. rewrite nth_error_app2 by (rewrite firstn_length; lia). rewrite firstn_length, Nat.min_l by lia.
    rewrite nth_error_app1 by lia. f_equal. lia.
  Qed.
  Lemma set_length m : forall a x, length (set_array m a x) = length m.
  Proof. induction m as [|y m IH]; intros [|a] x; cbn; try reflexivity. f_equal. apply IH. Qed.
  Lemma set_same m : forall a x, a < length m -> array_of (set_array m a x) a = x.
  Proof. unfold array_of. induction m as [|y m IH]; intros [|a] x L; cbn in *; try lia; [reflexivity|]. apply IH. lia. Qed.
  Lemma set_other m : forall a b x, a <> b -> array_of (set_array m a x) b = array_of m b.
  Proof. unfold array_of. induction m as [|y m IH]; intros [|a] [|b] x N; cbn; try reflexivity; try contradiction. apply IH. lia. Qed.
  (** What a change of memory did to the elements [lo] to [hi] of array [a], and nothing else *)
  Definition changed (m m' : memory T) (a lo hi : nat) (ok : T -> Prop) : Prop :=
    length m' = length m /\ (forall b, length (array_of m' b) = length (array_of m b)) /\
    (forall b j, b <> a \/ j < lo \/ hi <= j -> nth_error (array_of m' b) j = nth_error (array_of m b) j) /\
    (forall j, lo <= j < hi -> exists t, nth_error (array_of m' a) j = Some t /\ ok t).
  Lemma write_changed m a i x (ok : T -> Prop) : a < length m -> i + length x <= length (array_of m a) -> Forall ok x ->
    changed m (set_array m a (put (array_of m a) i x)) a i (i + length x) ok.
  Proof.
    intros A L F. split; [apply set_length|]. split.
    { intros b. destruct (Nat.eq_dec a b) as [<-|N]; [rewrite set_same by exact A; apply put_length; exact L|rewrite set_other by exact N; reflexivity]. }
    split.
    - intros b j J. destruct (Nat.eq_dec a b) as [<-|N]; [|rewrite set_other by exact N; reflexivity]. rewrite set_same by exact A. apply put_nth; [exact L|]. destruct J as [J|J]; [congruence|exact J].
    - intros j J. rewrite set_same by exact A. replace j with (i + (j - i)) by lia. rewrite put_new by lia.
      destruct (nth_error x (j - i)) as [t|] eqn:E; [|apply nth_error_None in E; lia]. exists t. split; [reflexivity|]. rewrite Forall_forall in F. apply F. eapply nth_error_In. exact E.
  Qed.
  Lemma fill_changed fill s : forall count i m, p_array s < length m -> p_first s + i + count <= length (array_of m (p_array s)) ->
    changed m (fill_loop count i fill s m) (p_array s) (p_first s + i) (p_first s + i + count) (fun t => t = fill).
  Proof.
    induction count as [|count IH]; intros i m A L; cbn [fill_loop].
    - split; [reflexivity|]. split; [reflexivity|]. split; [reflexivity|]. intros j J. lia.
    - pose proof (write_changed m (p_array s) (p_first s + i) [fill] (fun t => t = fill) A) as W. cbn [length] in W. specialize (W ltac:(lia) ltac:(repeat constructor)).
      destruct W as (W1 & W2 & W3 & W4). destruct (IH (S i) _ ltac:(rewrite W1; exact A) ltac:(rewrite W2; lia)) as (I1 & I2 & I3 & I4).
      split; [congruence|]. split; [intros b; rewrite I2; apply W2|]. split.
      + intros b j J. rewrite I3 by (destruct J as [J|[J|J]]; [left; exact J|right; left; lia|right; right; lia]). apply W3. destruct J as [J|[J|J]]; [left; exact J|right; left; exact J|right; right; lia].
      + intros j J. destruct (Nat.eq_dec j (p_first s + i)) as [->|N]; [|apply I4; lia]. rewrite I3 by (right; left; lia). apply W4. lia.
  Qed.
  Lemma content_nth m s j : j < p_len s -> nth_error (content_of m s) j = nth_error (array_of m (p_array s)) (p_first s + j).
  Proof.
    intros J. unfold content_of. remember (array_of m (p_array s)) as l. clear Heql. remember (p_len s) as n. clear Heqn. revert n j J. generalize (p_first s) as i. intros i.
    revert l. induction i as [|i IH]; intros l n j J.
    - cbn [skipn Nat.add]. revert n j J. induction l as [|e l IL]; intros [|n] j J; try lia; [rewrite firstn_nil; destruct j; reflexivity|]. destruct j as [|j]; [reflexivity|]. cbn. apply IL. lia.
    - destruct l as [|e l]; [cbn [skipn]; rewrite firstn_nil; destruct j; reflexivity|]. cbn [skipn Nat.add nth_error]. apply IH. exact J.
  Qed.
  Lemma content_length m s : fits m s -> length (content_of m s) = p_len s.
  Proof. intros (F1 & F2 & F3). unfold content_of. rewrite firstn_length, skipn_length. lia. Qed.
  Lemma nth_ext_list (l l' : list T) : (forall j, nth_error l j = nth_error l' j) -> l = l'.
  Proof.
    revert l'. induction l as [|e l IH]; intros [|e' l'] E; [reflexivity|specialize (E 0); discriminate E|specialize (E 0); discriminate E|].
    f_equal; [specialize (E 0); injection E as E; exact E|]. apply IH. intros j. exact (E (S j)).
  Qed.
  Lemma array_app_old m x a : a < length m -> array_of (m ++ [x]) a = array_of m a.
  Proof. intros A. unfold array_of. rewrite app_nth1 by exact A. reflexivity. Qed.
  Lemma array_app_new m x : array_of (m ++ [x]) (length m) = x.
  Proof. unfold array_of. rewrite app_nth2 by lia. rewrite Nat.sub_diag. reflexivity. Qed.

  Lemma part_firstn (P : T -> Prop) n l : Forall P l -> Forall P (firstn n l).
  Proof. intros F. rewrite <- (firstn_skipn n l) in F. apply Forall_app in F as [F _]. exact F. Qed.
  Lemma part_skipn (P : T -> Prop) n l : Forall P l -> Forall P (skipn n l).
  Proof. intros F. rewrite <- (firstn_skipn n l) in F. apply Forall_app in F as [_ F]. exact F. Qed.

  Variable zero : T.
  Theorem resize_spec more m s len fill : fits m s -> (0 <= len)%Z ->
    let n := Z.to_nat len in
    exists m' s', resize zero more m s len fill = Ok (m', s') /\ fits m' s' /\ p_len s' = n /\
      content_of m' s' = firstn n (content_of m s) ++ repeat fill (n - p_len s) /\
      (n <= p_cap s -> p_array s' = p_array s /\ p_first s' = p_first s /\ p_cap s' = p_cap s /\ length m' = length m) /\
      (p_cap s < n -> p_array s' = length m) /\
      length m <= length m' /\ (forall a, a < length m -> length (array_of m' a) = length (array_of m a)) /\
      (forall a j, a < length m -> (n <= p_cap s -> a <> p_array s \/ j < p_first s + p_len s \/ p_first s + n <= j) -> nth_error (array_of m' a) j = nth_error (array_of m a) j) /\
      (forall P : T -> Prop, P zero -> P fill -> Forall (Forall P) m -> Forall (Forall P) m').
  Proof.
    intros F Z0 n. pose proof F as (F1 & F2 & F3). unfold resize. destruct (Z.ltb_spec (Z.of_nat (p_len s)) len) as [L|L].
    - fold n. assert (Ln : p_len s < n) by (unfold n; lia). unfold append_to. rewrite repeat_length. replace (p_len s + (n - p_len s)) with n by lia.
      assert (Pw : forall (P : T -> Prop) l k i, P fill -> Forall P l -> i + k <= length l -> Forall P (put l i (repeat fill k))).
      { intros P l k i Pf Pl Lk. rewrite put_spec by lia. apply Forall_app. split; [apply part_firstn; exact Pl|]. apply Forall_app. split; [|apply part_skipn; exact Pl].
        apply Forall_forall; intros t I; apply repeat_spec in I; subst; exact Pf. }
      assert (Pa : forall (P : T -> Prop) m a, Forall (Forall P) m -> Forall P (array_of m a)).
      { intros P m0 a Pm. unfold array_of. destruct (nth_in_or_default a m0 []) as [I| ->]; [rewrite Forall_forall in Pm; apply Pm; exact I|constructor]. }
      assert (Ps : forall (P : T -> Prop) m a x, Forall (Forall P) m -> Forall P x -> Forall (Forall P) (set_array m a x)).
      { intros P m0. induction m0 as [|y m0 IH]; intros a x Pm Px; [destruct a; exact Pm|]. inversion Pm; subst. destruct a as [|a]; constructor; auto. }
      assert (Pf : forall (P : T -> Prop) s0 count i m0, P fill -> p_array s0 < length m0 -> p_first s0 + i + count <= length (array_of m0 (p_array s0)) -> Forall (Forall P) m0 -> Forall (Forall P) (fill_loop count i fill s0 m0)).
      { intros P s0 count. induction count as [|count IH]; intros i m0 Q A0 L0 Pm; [exact Pm|]. cbn [fill_loop].
        apply IH; [exact Q|rewrite set_length; exact A0|rewrite set_same by exact A0; rewrite put_length by (cbn [length]; lia); lia|].
        apply Ps; [exact Pm|]. apply (Pw P _ 1); [exact Q|apply Pa; exact Pm|lia]. }
      destruct (Nat.leb_spec n (p_cap s)) as [C|C].
      + set (m1 := set_array m (p_array s) (put (array_of m (p_array s)) (p_first s + p_len s) (repeat zero (n - p_len s)))). set (s' := mk_part (p_array s) (p_first s) n (p_cap s)).
        pose proof (write_changed m (p_array s) (p_first s + p_len s) (repeat zero (n - p_len s)) (fun _ => True) F2) as W. rewrite repeat_length in W.
        specialize (W ltac:(lia) ltac:(apply Forall_forall; auto)). fold m1 in W. destruct W as (W1 & W2 & W3 & _).
        pose proof (fill_changed fill s' (n - p_len s) (p_len s) m1) as G. cbn [p_array p_first s'] in G. specialize (G ltac:(rewrite W1; exact F2) ltac:(rewrite W2; lia)). fold s' in G.
        destruct G as (G1 & G2 & G3 & G4). set (m' := fill_loop (n - p_len s) (p_len s) fill s' m1) in *.
        assert (K : forall a j, a <> p_array s \/ j < p_first s + p_len s \/ p_first s + n <= j -> nth_error (array_of m' a) j = nth_error (array_of m a) j).
        { intros a j J. rewrite G3 by (destruct J as [J|[J|J]]; [left; exact J|right; left; lia|right; right; lia]). apply W3. destruct J as [J|[J|J]]; [left; exact J|right; left; lia|right; right; lia]. }
        assert (Ft : fits m' s') by (split; [cbn; lia|split; [cbn; rewrite G1, W1; exact F2|cbn; rewrite G2, W2; exact F3]]).
        exists m', s'. split; [reflexivity|]. split; [exact Ft|]. split; [reflexivity|]. split.
        { apply nth_ext_list. intros j. destruct (Nat.ltb_spec j n) as [J|J].
          - rewrite content_nth by exact J. cbn [p_array p_first s']. destruct (Nat.ltb_spec j (p_len s)) as [J'|J'].
            + rewrite K by (right; left; lia). rewrite nth_error_app1 by (rewrite firstn_length, content_length by exact F; lia). rewrite firstn_all2 by (rewrite content_length by exact F; lia). symmetry. apply content_nth. exact J'.
            + destruct (G4 (p_first s + j) ltac:(lia)) as (t & E & ->). rewrite E. rewrite nth_error_app2 by (rewrite firstn_length, content_length by exact F; lia).
              rewrite firstn_length, content_length by exact F. rewrite Nat.min_r by lia. symmetry. rewrite nth_error_repeat by lia. reflexivity.
          - transitivity (@None T); [apply nth_error_None; rewrite content_length by exact Ft; exact J|]. symmetry. apply nth_error_None. rewrite app_length, firstn_length, repeat_length, content_length by exact F. lia. }
        split; [intros _; repeat split; cbn; rewrite G1, W1; reflexivity|]. split; [lia|]. split; [rewrite G1, W1; lia|]. split; [intros a _; rewrite G2; apply W2|]. split; [intros a j _ J; apply K; apply J; exact C|].
        intros P Pz Pfl Pm. apply Pf; [exact Pfl|cbn; rewrite W1; exact F2|cbn; rewrite W2; lia|]. apply Ps; [exact Pm|]. clear - Pz Pm F1 F2 F3 C Ln Pa.
        rewrite put_spec by lia. rewrite repeat_length. pose proof (Pa P m (p_array s) Pm) as Q. apply Forall_app. split; [rewrite <- (firstn_skipn (p_first s + p_len s) _) in Q; apply Forall_app in Q as [Q _]; exact Q|].
        apply Forall_app. split; [apply Forall_forall; intros t I; apply repeat_spec in I; subst; exact Pz|]. rewrite <- (firstn_skipn (p_first s + p_len s + (n - p_len s)) _) in Q. apply Forall_app in Q as [_ Q]. exact Q.
      + set (x := content_of m s ++ repeat zero (n - p_len s) ++ repeat zero more). set (s' := mk_part (length m) 0 n (n + more)).
        assert (Lx : length x = n + more) by (unfold x; rewrite !app_length, !repeat_length, content_length by exact F; lia).
        pose proof (fill_changed fill s' (n - p_len s) (p_len s) (m ++ [x])) as G. cbn [p_array p_first s'] in G. rewrite array_app_new in G.
        specialize (G ltac:(rewrite app_length; cbn; lia) ltac:(lia)). fold s' in G. destruct G as (G1 & G2 & G3 & G4). set (m' := fill_loop (n - p_len s) (p_len s) fill s' (m ++ [x])) in *.
        assert (Ft : fits m' s') by (split; [cbn; lia|split; [cbn; rewrite G1, app_length; cbn; lia|cbn; rewrite G2, array_app_new; lia]]).
        exists m', s'. split; [reflexivity|]. split; [exact Ft|]. split; [reflexivity|]. split.
        { apply nth_ext_list. intros j. destruct (Nat.ltb_spec j n) as [J|J].
          - rewrite content_nth by exact J. cbn [p_array p_first s' Nat.add]. destruct (Nat.ltb_spec j (p_len s)) as [J'|J'].
            + rewrite G3 by (right; left; lia). rewrite array_app_new. unfold x. rewrite !nth_error_app1 by (rewrite ?firstn_length, content_length by exact F; lia). rewrite firstn_all2 by (rewrite content_length by exact F; lia). reflexivity.
            + destruct (G4 j ltac:(lia)) as (t & E & ->). rewrite E. rewrite nth_error_app2 by (rewrite firstn_length, content_length by exact F; lia).
              rewrite firstn_length, content_length by exact F. rewrite Nat.min_r by lia. symmetry. rewrite nth_error_repeat by lia. reflexivity.
          - transitivity (@None T); [apply nth_error_None; rewrite content_length by exact Ft; exact J|]. symmetry. apply nth_error_None. rewrite app_length, firstn_length, repeat_length, content_length by exact F. lia. }
        split; [lia|]. split; [reflexivity|]. split; [rewrite G1, app_length; lia|]. split; [intros a A; rewrite G2, array_app_old by exact A; reflexivity|].
        split; [intros a j A _; rewrite G3 by (left; lia); rewrite array_app_old by exact A; reflexivity|].
        intros P Pz Pfl Pm. apply Pf; [exact Pfl|cbn; rewrite app_length; cbn; lia|cbn; rewrite array_app_new; lia|]. apply Forall_app. split; [exact Pm|]. constructor; [|constructor]. unfold x.
        apply Forall_app. split; [|apply Forall_app; split; apply Forall_forall; intros t I; apply repeat_spec in I; subst; exact Pz].
        pose proof (Pa P m (p_array s) Pm) as Q. unfold content_of. rewrite <- (firstn_skipn (p_first s) _) in Q. apply Forall_app in Q as [_ Q]. rewrite <- (firstn_skipn (p_len s) _) in Q. apply Forall_app in Q as [Q _]. exact Q.
    - destruct (Z.ltb_spec len 0) as [X|_]; [lia|]. assert (Ln : n <= p_len s) by (unfold n; lia). fold n. set (s' := mk_part (p_array s) (p_first s) n (p_cap s)).
      exists m, s'. split; [reflexivity|]. split; [split; [cbn; lia|split; [exact F2|exact F3]]|]. split; [reflexivity|]. split.
      { replace (n - p_len s) with 0 by lia. cbn [repeat]. rewrite app_nil_r. unfold content_of. cbn [p_array p_first p_len s']. rewrite firstn_firstn, Nat.min_l by exact Ln. reflexivity. }
      split; [intros _; repeat split|]. split; [lia|]. repeat split; auto.
  Qed.
End Slices.

Theorem channels_spec calls : forall m s, fits m s -> Forall (Forall (fun t => t = 0)) m ->
  exists m' l, channels calls m s = Ok (m', l) /\ length m <= length m' /\ (forall a, a < length m -> length (array_of m' a) = length (array_of m a)) /\
    Forall (Forall (fun t => t = 0)) m' /\ Forall2 (fun c s => fits m' s /\ p_len s = fst c) calls l.
Proof.
  induction calls as [|[n more] calls IH]; intros m s F Z; cbn [channels].
  - exists m, []. repeat split; auto.
  - destruct (resize_spec 0 more m s (Z.of_nat n) 0 F ltac:(lia)) as (m1 & s1 & E & F1 & L1 & _ & _ & _ & M1 & A1 & _ & P1). rewrite E. rewrite Nat2Z.id in L1.
    specialize (P1 (fun t => t = 0) eq_refl eq_refl Z). destruct (IH m1 s1 F1 P1) as (m2 & l & E2 & M2 & A2 & Z2 & G). rewrite E2. exists m2, (s1 :: l).
    split; [reflexivity|]. split; [lia|]. split; [intros a A; rewrite A2 by lia; apply A1; exact A|]. split; [exact Z2|]. constructor; [|exact G].
    split; [|exact L1]. destruct F1 as (B1 & B2 & B3). split; [exact B1|]. split; [lia|]. rewrite A2 by exact B2. exact B3.
Qed.
Lemma zeros_content (m : memory nat) s : fits m s -> Forall (Forall (fun t => t = 0)) m -> content_of m s = repeat 0 (p_len s).
Proof.
  intros F Z. pose proof (content_length m s F) as L. assert (Q : Forall (fun t => t = 0) (content_of m s)).
  { unfold content_of, array_of. assert (Q : Forall (fun t => t = 0) (nth (p_array s) m [])) by (destruct (nth_in_or_default (p_array s) m []) as [I| ->]; [rewrite Forall_forall in Z; apply Z; exact I|constructor]).
    rewrite <- (firstn_skipn (p_first s) _) in Q. apply Forall_app in Q as [_ Q]. rewrite <- (firstn_skipn (p_len s) _) in Q. apply Forall_app in Q as [Q _]. exact Q. }
  rewrite <- L. clear L. induction Q as [|t l -> Q IH]; [reflexivity|]. cbn. f_equal. exact IH.
Qed.

(** ** Types *)
Section Types.
  Context {A T : Type}.
  Variable conv : A -> option T.
  Lemma typed_spec s : typed_slice conv s =
    (flat_map (fun e => match conv e with Some t => [t] | None => [] end) s, filter (fun e => match conv e with Some _ => false | None => true end) s).
  Proof. induction s as [|e s IH]; [reflexivity|]. cbn [typed_slice flat_map filter]. rewrite IH. destruct (conv e); reflexivity. Qed.
  Lemma to_typed_iff slice l : to_typed_slice conv slice = Ok l <-> exists s, slice = Some s /\ Forall2 (fun e t => conv e = Some t) s l.
  Proof.
    destruct slice as [s|]; [|split; [discriminate|intros (s & E & _); discriminate E]]. cbn [to_typed_slice]. rewrite typed_spec.
    assert (G : forall l, match filter (fun e => match conv e with Some _ => false | None => true end) s with [] => Ok (flat_map (fun e => match conv e with Some t => [t] | None => [] end) s) | _ => Err end = Ok l <-> Forall2 (fun e t => conv e = Some t) s l).
    { induction s as [|e s IH]; intros l0.
      - cbn. split; [intros E; injection E as <-; constructor|intros F; inversion F; reflexivity].
      - cbn [filter flat_map]. destruct (conv e) as [t|] eqn:C; [|split; [discriminate|intros F; inversion F; congruence]]. cbn [app].
        destruct l0 as [|t0 l0]; [split; [destruct (filter _ s); discriminate|intros F; inversion F]|]. specialize (IH l0).
        split.
        + intros E. destruct (filter _ s); [|discriminate E]. injection E as <- E. constructor; [exact C|]. apply IH. rewrite E. reflexivity.
        + intros F. inversion F; subst. rewrite C in *. assert (t0 = t) by congruence. subst t0. destruct IH as [_ IH]. specialize (IH ltac:(assumption)). destruct (filter _ s); [|discriminate IH]. injection IH as ->. reflexivity. }
    split; [intros E|intros (s' & E & X)].
    - exists s. split; [reflexivity|]. apply G. destruct (filter _ s); exact E.
    - injection E as <-. apply G in X. destruct (filter _ s); exact X.
  Qed.
End Types.
