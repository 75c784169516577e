(** The interval lists of the journal as sets of indices. *)
From Coq Require Import Sorted.
From Verif Require Import Base BaseLemmas UtilModel JournalModel.
Local Open Scope N_scope.

(** Independent reading: the set of indices of an interval list. *)
Definition covers (l : list interval) (i : N) : Prop := exists iv, In iv l /\ iv_s iv <= i <= iv_e iv.
Definition gap (a b : interval) : Prop := iv_e a + 1 < iv_s b.
(** Sorted, disjoint and not adjacent; every interval non-empty. *)
Definition canonical (l : list interval) : Prop := StronglySorted gap l /\ Forall (fun iv => iv_s iv <= iv_e iv) l.
(** The largest index of uint is not used. *)
Definition below_max (iv : interval) : Prop := iv_e iv + 1 < 2 ^ 64.

Lemma ssorted_app {A} (R : A -> A -> Prop) l1 l2 :
  StronglySorted R (l1 ++ l2) <-> StronglySorted R l1 /\ StronglySorted R l2 /\ (forall a b, In a l1 -> In b l2 -> R a b).
Proof.
  induction l1 as [|x l1 IH]; cbn [app].
  - split; [intros Hs; split; [constructor|]; split; [exact Hs | intros a b []] | tauto].
  - split.
    + intros Hs. inversion Hs as [|? ? Hs' Hf]; subst. apply IH in Hs' as (H1 & H2 & H3). rewrite Forall_forall in Hf.
      split; [constructor; [exact H1 | apply Forall_forall; intros y Hy; apply Hf, in_or_app; auto]|].
      split; [exact H2|]. intros a b [<-|Ha] Hb; [apply Hf, in_or_app; auto | auto].
    + intros (H1 & H2 & H3). inversion H1 as [|? ? H1' Hf]; subst. constructor.
      * apply IH. split; [exact H1'|]. split; [exact H2|]. intros a b Ha Hb. apply H3; [right; exact Ha | exact Hb].
      * rewrite Forall_forall in *. intros y Hy. apply in_app_or in Hy as [Hy|Hy]; [auto | apply H3; [left; reflexivity | exact Hy]].
Qed.

(** ** Binary search *)
Definition sorted_starts (l : list interval) : Prop :=
  forall k k', (k < k')%nat -> (k' < length l)%nat -> iv_s (nth k l iv0) < iv_s (nth k' l iv0).
Lemma canonical_starts l : canonical l -> sorted_starts l.
Proof.
  intros [Hs Hf] k k' Hk Hk'.
  rewrite <- (firstn_skipn k' l) in Hs. apply ssorted_app in Hs as (_ & _ & Hg).
  assert (Hin : In (nth k l iv0) (firstn k' l)).
  { rewrite <- (firstn_skipn k' l) at 1. rewrite app_nth1 by (rewrite firstn_length; lia). apply nth_In. rewrite firstn_length. lia. }
  assert (Hin' : In (nth k' l iv0) (skipn k' l)).
  { rewrite <- (firstn_skipn k' l) at 1. rewrite app_nth2 by (rewrite firstn_length; lia). apply nth_In. rewrite firstn_length, skipn_length. lia. }
  specialize (Hg _ _ Hin Hin'). unfold gap in Hg.
  rewrite Forall_forall in Hf. specialize (Hf (nth k l iv0) ltac:(apply nth_In; lia)). cbn beta in Hf. lia.
Qed.
Lemma bsearch_spec l t : sorted_starts l -> forall fuel i j, (j - i <= fuel)%nat -> (i <= j)%nat -> (j <= length l)%nat ->
  (forall k, (k < i)%nat -> iv_s (nth k l iv0) < t) -> (forall k, (j <= k < length l)%nat -> t <= iv_s (nth k l iv0)) ->
  let r := bsearch fuel l t i j in
  (r <= length l)%nat /\ (forall k, (k < r)%nat -> iv_s (nth k l iv0) < t) /\ (forall k, (r <= k < length l)%nat -> t <= iv_s (nth k l iv0)).
Proof.
  intros Hst. induction fuel as [|f IH]; intros i j Hf Hij Hj Hlo Hhi; cbn [bsearch].
  - assert (i = j) by lia. subst. cbv zeta. split; [lia|]. auto.
  - destruct (Nat.ltb_spec i j) as [Hl|Hl].
    + assert (Hh : (i <= (i + j) / 2 < j)%nat).
      { split; [apply Nat.div_le_lower_bound; lia | apply Nat.div_lt_upper_bound; lia]. }
      set (h := ((i + j) / 2)%nat) in *. cbv zeta. destruct (N.ltb_spec (iv_s (nth h l iv0)) t) as [Hc|Hc].
      * apply IH; try lia; auto. intros k Hk. destruct (Nat.eq_dec k h) as [->|Hne]; [exact Hc|].
        destruct (Nat.lt_ge_cases k h) as [Hkh|Hkh]; [|lia]. specialize (Hst k h Hkh ltac:(lia)). lia.
      * apply IH; try lia; auto. intros k Hk. destruct (Nat.eq_dec k h) as [->|Hne]; [exact Hc|].
        specialize (Hst h k ltac:(lia) ltac:(lia)). lia.
    + assert (i = j) by lia. subst. cbv zeta. split; [lia|]. auto.
Qed.
Lemma search_split l t : sorted_starts l -> exists pre post, l = pre ++ post /\ fst (search l t) = length pre /\
  (forall a, In a pre -> iv_s a < t) /\ (forall b, In b post -> t <= iv_s b) /\
  snd (search l t) = match post with b :: _ => N.eqb (iv_s b) t | [] => false end.
Proof.
  intros Hst. destruct (bsearch_spec l t Hst (length l) 0 (length l)) as (Hr & Hlo & Hhi); try lia.
  unfold search. set (r := bsearch (length l) l t 0 (length l)) in *. cbn [fst snd].
  exists (firstn r l), (skipn r l). split; [symmetry; apply firstn_skipn|]. split; [rewrite firstn_length; lia|].
  split; [|split].
  - intros a Ha. apply (In_nth _ _ iv0) in Ha as (k & Hk & <-). rewrite firstn_length in Hk.
    assert (Hq : nth k (firstn r l) iv0 = nth k l iv0).
    { rewrite <- (firstn_skipn r l) at 2. rewrite app_nth1; [reflexivity | rewrite firstn_length; lia]. }
    rewrite Hq. apply Hlo. lia.
  - intros b Hb. apply (In_nth _ _ iv0) in Hb as (k & Hk & <-). rewrite skipn_length in Hk.
    assert (Hq : nth k (skipn r l) iv0 = nth (r + k) l iv0).
    { rewrite <- (firstn_skipn r l) at 2. rewrite app_nth2 by (rewrite firstn_length; lia). f_equal. rewrite firstn_length. lia. }
    rewrite Hq. apply Hhi. lia.
  - destruct (Nat.ltb_spec r (length l)) as [Hl|Hl].
    + cbn [andb]. assert (Hq : nth r l iv0 = nth 0 (skipn r l) iv0).
      { rewrite <- (firstn_skipn r l) at 1. rewrite app_nth2 by (rewrite firstn_length; lia). f_equal. rewrite firstn_length. lia. }
      rewrite Hq. destruct (skipn r l) as [|b post] eqn:Hs; [|reflexivity].
      apply (f_equal (@length _)) in Hs. rewrite skipn_length in Hs. cbn in Hs. lia.
    + rewrite skipn_all2 by lia. reflexivity.
Qed.

(** ** Absorbing successors *)
Fixpoint absorb_l (iv : interval) (post : list interval) : interval * list interval :=
  match post with
  | [] => (iv, [])
  | x :: r => if can_merge iv x then absorb_l (merge_iv iv x) r else (iv, post)
  end.
Lemma remove_at_len pre x post : remove_at (length pre) (pre ++ x :: post) = pre ++ post.
Proof.
  unfold remove_at. rewrite firstn_app_exact by reflexivity. f_equal.
  replace (S (length pre)) with (length (pre ++ [x])) by (rewrite app_length; cbn; lia).
  change (x :: post) with ([x] ++ post). rewrite app_assoc. apply skipn_app_exact. reflexivity.
Qed.
Lemma absorb_eq pre post : forall fuel iv, (length post <= fuel)%nat ->
  absorb fuel (length pre) iv (pre ++ post) = (fst (absorb_l iv post), pre ++ snd (absorb_l iv post)).
Proof.
  induction post as [|x r IH]; intros fuel iv Hf.
  - rewrite app_nil_r. cbn [absorb_l fst snd]. rewrite app_nil_r. destruct fuel; cbn [absorb]; [reflexivity|]. rewrite Nat.ltb_irrefl. reflexivity.
  - destruct fuel as [|f]; [cbn in Hf; lia|]. cbn [absorb absorb_l].
    destruct (Nat.ltb_spec (length pre) (length (pre ++ x :: r))) as [Hl|Hl]; [|rewrite app_length in Hl; cbn in Hl; lia].
    rewrite app_nth2, Nat.sub_diag by lia. cbn [nth andb]. destruct (can_merge iv x); [|reflexivity].
    rewrite remove_at_len. apply IH. cbn in Hf. lia.
Qed.

Lemma wrap64_id n : n < 2 ^ 64 -> wrap64 n = n.
Proof. apply N.mod_small. Qed.
Lemma can_merge_spec a b : below_max a -> below_max b -> can_merge a b = true <-> iv_s a <= iv_e b + 1 /\ iv_s b <= iv_e a + 1.
Proof.
  unfold below_max, can_merge. intros Ha Hb. rewrite !wrap64_id by assumption. rewrite andb_true_iff, !N.leb_le. reflexivity.
Qed.

Lemma covers_nil i : ~ covers [] i.
Proof. intros (iv & [] & _). Qed.
Lemma covers_cons iv l i : covers (iv :: l) i <-> iv_s iv <= i <= iv_e iv \/ covers l i.
Proof.
  split.
  - intros (x & [<-|Hx] & Hi); [auto | right; exists x; auto].
  - intros [Hi|(x & Hx & Hi)]; [exists iv; split; [left; reflexivity | exact Hi] | exists x; split; [right; exact Hx | exact Hi]].
Qed.
Lemma covers_app l1 l2 i : covers (l1 ++ l2) i <-> covers l1 i \/ covers l2 i.
Proof.
  split.
  - intros (x & Hx & Hi). apply in_app_or in Hx as [Hx|Hx]; [left | right]; exists x; auto.
  - intros [(x & Hx & Hi)|(x & Hx & Hi)]; exists x; (split; [apply in_or_app; auto | exact Hi]).
Qed.
Lemma canonical_cons x r : canonical (x :: r) <-> canonical r /\ iv_s x <= iv_e x /\ (forall y, In y r -> gap x y).
Proof.
  unfold canonical. split.
  - intros [Hs Hf]. inversion Hs as [|? ? Hs' Hg]; subst. inversion Hf as [|? ? Hx Hf']; subst. rewrite Forall_forall in Hg. auto.
  - intros ((Hs & Hf) & Hx & Hg). split; constructor; auto. apply Forall_forall. exact Hg.
Qed.

Lemma absorb_l_spec post : forall iv iv' post',
  absorb_l iv post = (iv', post') -> canonical post -> Forall below_max post -> below_max iv ->
  iv_s iv <= iv_e iv -> (forall b, In b post -> iv_s iv <= iv_s b) ->
  canonical (iv' :: post') /\ iv_s iv' = iv_s iv /\ Forall below_max (iv' :: post') /\
  forall i, covers (iv' :: post') i <-> iv_s iv <= i <= iv_e iv \/ covers post i.
Proof.
  induction post as [|x r IH]; intros iv iv' post' Hq Hc Hm Hmi Hv Hs; cbn [absorb_l] in Hq.
  - injection Hq as <- <-. split; [apply canonical_cons; split; [exact Hc|]; split; [exact Hv | intros y []]|].
    split; [reflexivity|]. split; [constructor; auto|]. intros i. apply covers_cons.
  - apply canonical_cons in Hc as (Hc & Hx & Hg). inversion Hm as [|? ? Hmx Hmr]; subst.
    pose proof (Hs x (or_introl eq_refl)) as Hsx.
    destruct (can_merge iv x) eqn:Hcm.
    + apply can_merge_spec in Hcm as [_ Hadj]; [|assumption|assumption].
      apply IH in Hq as (H1 & H2 & H3 & H4); auto.
      * split; [exact H1|]. split; [rewrite H2; cbn; lia|]. split; [exact H3|]. intros i. rewrite H4, covers_cons. cbn [iv_s iv_e merge_iv].
        split; intros [Hi|Hi]; try (right; right; exact Hi).
        -- destruct (N.le_gt_cases i (iv_e iv)) as [Hle|Hgt]; [left; lia | right; left; lia].
        -- left. lia.
        -- destruct Hi as [Hi|Hi]; [left; lia | right; exact Hi].
      * unfold below_max in *. cbn. lia.
      * cbn. lia.
      * intros b Hb. specialize (Hg b Hb). unfold gap in Hg. cbn. lia.
    + injection Hq as <- <-.
      assert (Hno : iv_e iv + 1 < iv_s x).
      { destruct (N.lt_ge_cases (iv_e iv + 1) (iv_s x)) as [H1|H1]; [exact H1|]. exfalso.
        rewrite (proj2 (can_merge_spec iv x Hmi Hmx)) in Hcm; [discriminate | split; lia]. }
      split.
      * apply canonical_cons. split; [apply canonical_cons; auto|]. split; [exact Hv|]. intros y [<-|Hy]; [exact Hno|].
        specialize (Hg y Hy). unfold gap in *. lia.
      * split; [reflexivity|]. split; [constructor; auto|]. intros i. apply covers_cons.
Qed.

Theorem append_interval_ok l iv : canonical l -> Forall below_max l -> iv_s iv <= iv_e iv -> below_max iv ->
  canonical (append_interval l iv) /\ Forall below_max (append_interval l iv) /\
  forall i, covers (append_interval l iv) i <-> covers l i \/ iv_s iv <= i <= iv_e iv.
Proof.
  intros Hc Hm Hv Hmi. unfold append_interval.
  destruct (search_split l (iv_s iv) (canonical_starts l Hc)) as (pre & post & Hl & Hidx & Hpre & Hpost & _).
  rewrite Hidx. subst l. clear Hidx.
  assert (Hs := proj1 Hc). assert (Hf := proj2 Hc). apply ssorted_app in Hs as (Hs1 & Hs2 & Hs12). apply Forall_app in Hf as [Hf1 Hf2].
  apply Forall_app in Hm as [Hm1 Hm2].
  (* with the predecessor settled: prefix p with a gap to the start of the interval x *)
  assert (Hfinal : forall p x r, r = (let (iv', l') := absorb (length (p ++ post)) (length p) x (p ++ post) in
      firstn (length p) l' ++ iv' :: skipn (length p) l') -> canonical p -> Forall below_max p -> (forall a, In a p -> gap a x) ->
    iv_s x <= iv_s iv -> iv_s x <= iv_e x -> below_max x ->
    (forall i, covers p i \/ iv_s x <= i <= iv_e x <-> covers pre i \/ iv_s iv <= i <= iv_e iv) ->
    canonical r /\ Forall below_max r /\
    forall i, covers r i <-> covers (pre ++ post) i \/ iv_s iv <= i <= iv_e iv).
  { intros p x r -> Hcp Hmp Hgp Hsx Hvx Hmx Hcov. rewrite absorb_eq by (rewrite app_length; lia).
    destruct (absorb_l x post) as [iv' post'] eqn:Ha. cbn [fst snd].
    apply absorb_l_spec in Ha as (Hca & Hsa & Hma & Hcova); auto; [|split; assumption|intros b Hb; specialize (Hpost b Hb); lia].
    rewrite firstn_app_exact, skipn_app_exact by reflexivity. split; [|split].
    - destruct Hca as [Hca1 Hca2]. destruct Hcp as [Hcp1 Hcp2]. split; [|apply Forall_app; auto].
      apply ssorted_app. split; [exact Hcp1|]. split; [exact Hca1|]. intros a b Ha Hb. specialize (Hgp a Ha). unfold gap in *.
      destruct Hb as [<-|Hb]; [lia|]. inversion Hca1 as [|? ? _ Hg]; subst. rewrite Forall_forall in Hg. specialize (Hg b Hb). unfold gap in Hg.
      inversion Hca2 as [|? ? Hva _]; subst. lia.
    - apply Forall_app. auto.
    - intros i. rewrite !covers_app, Hcova. specialize (Hcov i). tauto. }
  destruct (Nat.ltb_spec 0 (length pre)) as [Hpos|Hpos]; cbn [andb].
  - destruct (exists_last (l := pre)) as (q & y & ->); [destruct pre; [cbn in Hpos; lia | discriminate]|].
    rewrite app_length in *. cbn [length] in *. rewrite Nat.add_sub.
    assert (Hny : nth (length q) ((q ++ [y]) ++ post) iv0 = y).
    { rewrite <- app_assoc. rewrite app_nth2, Nat.sub_diag by lia. reflexivity. }
    rewrite Hny. apply Forall_app in Hm1 as [Hmq Hmy]. inversion Hmy as [|? ? Hmy' _]; subst.
    apply Forall_app in Hf1 as [Hfq Hfy]. inversion Hfy as [|? ? Hvy _]; subst.
    apply ssorted_app in Hs1 as (Hsq & _ & Hsqy).
    pose proof (Hpre y ltac:(apply in_or_app; right; left; reflexivity)) as Hsy.
    destruct (can_merge y iv) eqn:Hcm.
    + apply can_merge_spec in Hcm as [_ Hadj]; [|assumption|assumption].
      replace (remove_at (length q) ((q ++ [y]) ++ post)) with (q ++ post) by (rewrite <- app_assoc; symmetry; apply remove_at_len).
      apply (Hfinal q (merge_iv y iv) _ eq_refl); auto.
      * split; assumption.
      * intros a Ha. specialize (Hsqy a y Ha (or_introl eq_refl)). unfold gap in *. cbn. lia.
      * cbn. lia.
      * cbn. lia.
      * unfold below_max in *. cbn. lia.
      * intros i. rewrite covers_app, covers_cons. cbn [iv_s iv_e merge_iv]. pose proof (covers_nil i).
        split.
        -- intros [Hi|Hi]; [tauto|]. destruct (N.le_gt_cases i (iv_e y)); [left; right; left; lia | right; lia].
        -- intros [[Hi|[Hi|Hi]]|Hi]; try tauto; right; lia.
    + replace (length q + 1)%nat with (length (q ++ [y])) by (rewrite app_length; reflexivity).
      replace (length (q ++ [y]) + length post)%nat with (length ((q ++ [y]) ++ post)) by (rewrite (app_length (q ++ [y])); reflexivity).
      apply (Hfinal (q ++ [y]) iv _ eq_refl); auto; try lia; try reflexivity.
      * split; [|apply Forall_app; auto]. apply ssorted_app. split; [exact Hsq|]. split; [repeat constructor | exact Hsqy].
      * apply Forall_app. auto.
      * assert (Hno : gap y iv).
        { unfold gap. destruct (N.lt_ge_cases (iv_e y + 1) (iv_s iv)) as [H1|H1]; [exact H1|]. exfalso.
          rewrite (proj2 (can_merge_spec y iv Hmy' Hmi)) in Hcm; [discriminate | split; lia]. }
        intros a Ha. apply in_app_or in Ha as [Ha|[<-|[]]]; [|exact Hno].
        specialize (Hsqy a y Ha (or_introl eq_refl)). unfold gap in *. lia.
  - destruct pre as [|y pre]; [|cbn in Hpos; lia]. cbn [app length] in *.
    apply (Hfinal [] iv _ eq_refl); auto; try lia; try reflexivity.
    + split; constructor.
    + intros a [].
Qed.

(** ** Coverage test *)
Lemma covers_interval l iv : canonical l -> iv_s iv <= iv_e iv ->
  (forall i, iv_s iv <= i <= iv_e iv -> covers l i) <-> exists x, In x l /\ iv_s x <= iv_s iv /\ iv_e iv <= iv_e x.
Proof.
  intros [Hs Hf] Hv. split.
  - intros Hall. destruct (Hall (iv_s iv) ltac:(lia)) as (x & Hx & Hi). exists x. split; [exact Hx|]. split; [lia|].
    destruct (N.le_gt_cases (iv_e iv) (iv_e x)) as [H1|H1]; [exact H1|]. exfalso.
    destruct (Hall (iv_e x + 1) ltac:(lia)) as (y & Hy & Hiy).
    apply in_split in Hx as (l1 & l2 & ->). apply ssorted_app in Hs as (_ & Hs2 & Hs12).
    inversion Hs2 as [|? ? _ Hg]; subst. rewrite Forall_forall in Hg.
    apply in_app_or in Hy as [Hy|[<-|Hy]].
    + specialize (Hs12 y x Hy (or_introl eq_refl)). unfold gap in Hs12. lia.
    + lia.
    + specialize (Hg y Hy). unfold gap in Hg. lia.
  - intros (x & Hx & H1 & H2) i Hi. exists x. split; [exact Hx | lia].
Qed.
Theorem contains_ok l k c iv : get_key k c = Some l -> canonical l -> iv_s iv <= iv_e iv ->
  contains_completed c k iv = true <-> forall i, iv_s iv <= i <= iv_e iv -> covers l i.
Proof.
  intros Hk Hc Hv. rewrite covers_interval by assumption. unfold contains_completed. rewrite Hk.
  destruct (search_split l (iv_s iv) (canonical_starts l Hc)) as (pre & post & Hl & Hidx & Hpre & Hpost & Hfound).
  destruct (search l (iv_s iv)) as [idx found]. cbn [fst snd] in *. subst idx found.
  assert (Hs := proj1 Hc). rewrite Hl in Hs. apply ssorted_app in Hs as (Hs1 & Hs2 & Hs12).
  assert (Hf := proj2 Hc). rewrite Hl in Hf. apply Forall_app in Hf as [Hf1 Hf2].
  destruct (match post with [] => false | b :: _ => N.eqb (iv_s b) (iv_s iv) end) eqn:Hfd.
  - destruct post as [|b post]; [discriminate|]. apply N.eqb_eq in Hfd. rewrite Hl, app_nth2, Nat.sub_diag by lia. cbn [nth].
    rewrite N.leb_le. split.
    + intros He. exists b. split; [apply in_or_app; right; left; reflexivity | lia].
    + intros (x & Hx & H1 & H2). apply in_app_or in Hx as [Hx|[<-|Hx]]; [| exact H2 |].
      * specialize (Hs12 x b Hx (or_introl eq_refl)). unfold gap in Hs12. lia.
      * inversion Hs2 as [|? ? _ Hg]; subst. rewrite Forall_forall in Hg. specialize (Hg x Hx). unfold gap in Hg.
        inversion Hf2; subst. lia.
  - assert (Hpost' : forall b, In b post -> iv_s iv < iv_s b).
    { intros b Hb. destruct post as [|b0 post]; [destruct Hb|]. apply N.eqb_neq in Hfd. pose proof (Hpost b0 (or_introl eq_refl)) as H0.
      destruct Hb as [<-|Hb]; [lia|]. inversion Hs2 as [|? ? _ Hg]; subst. rewrite Forall_forall in Hg. specialize (Hg b Hb). unfold gap in Hg.
      inversion Hf2; subst. lia. }
    destruct (Nat.eqb_spec (length pre) 0) as [H0|H0].
    + split; [discriminate|]. intros (x & Hx & H1 & _). destruct pre; [|discriminate]. rewrite Hl in Hx. specialize (Hpost' x Hx). lia.
    + destruct (exists_last (l := pre)) as (q & y & ->); [destruct pre; [cbn in H0; lia | discriminate]|].
      rewrite app_length in *. cbn [length] in *. rewrite Nat.add_sub.
      assert (Hny : nth (length q) l iv0 = y).
      { rewrite Hl, <- app_assoc. rewrite app_nth2, Nat.sub_diag by lia. reflexivity. }
      rewrite Hny, andb_true_iff, !N.leb_le. split.
      * intros [H1 H2]. exists y. split; [rewrite Hl; apply in_or_app; left; apply in_or_app; right; left; reflexivity | auto].
      * intros (x & Hx & H1 & H2). rewrite Hl in Hx. apply in_app_or in Hx as [Hx|Hx]; [|specialize (Hpost' x Hx); lia].
        apply in_app_or in Hx as [Hx|[<-|[]]]; [|auto]. apply ssorted_app in Hs1 as (_ & _ & Hsqy).
        specialize (Hsqy x y Hx (or_introl eq_refl)). unfold gap in Hsqy.
        pose proof (Hpre y ltac:(apply in_or_app; right; left; reflexivity)). lia.
Qed.
