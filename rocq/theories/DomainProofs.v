(** Lemmas about domain names. *)
From Verif Require Import Base BaseLemmas DomainModel DomainSpec.

Definition no_dot (l : bytes) : Prop := ~ In dot l.

Lemma labels_ne s : labels s <> [].
Proof. destruct s as [|c s]; cbn; [discriminate|]. destruct (Byte.eqb c dot); [discriminate|]. destruct (labels s); discriminate. Qed.
Lemma labels_no_dot s : Forall no_dot (labels s).
Proof.
  induction s as [|c s IH]; cbn; [repeat constructor; intros []|].
  destruct (Byte.eqb c dot) eqn:E; [constructor; [intros [] | exact IH]|].
  destruct (labels s) as [|p r] eqn:El; [exfalso; exact (labels_ne s El)|]. inversion IH; subst.
  constructor; [|assumption]. intros [X|X]; [|exact (H1 X)]. rewrite X in E. discriminate E.
Qed.
Lemma join_cons l r : r <> [] -> join (l :: r) = l ++ dot :: join r.
Proof. destruct r; [congruence | reflexivity]. Qed.
Lemma join_cons_cons c p r : join ((c :: p) :: r) = c :: join (p :: r).
Proof. destruct r; reflexivity. Qed.
Lemma join_labels s : join (labels s) = s.
Proof.
  induction s as [|c s IH]; [reflexivity|]. cbn [labels]. destruct (Byte.eqb c dot) eqn:E.
  - rewrite (join_cons _ _ (labels_ne s)). apply byte_eqb_eq in E. subst c. cbn. f_equal. exact IH.
  - destruct (labels s) as [|p r] eqn:El; [exfalso; exact (labels_ne s El)|]. rewrite join_cons_cons. f_equal. exact IH.
Qed.
Lemma labels_app_dot l s : no_dot l -> labels (l ++ dot :: s) = l :: labels s.
Proof.
  induction l as [|c l IH]; intros Hn.
  - cbn [app labels]. reflexivity.
  - cbn [app labels]. destruct (Byte.eqb c dot) eqn:E; [exfalso; apply Hn; apply byte_eqb_eq in E; subst; left; reflexivity|].
    rewrite IH; [reflexivity|]. intros X. apply Hn. right. exact X.
Qed.
Lemma labels_one l : no_dot l -> labels l = [l].
Proof.
  induction l as [|c l IH]; intros Hn; [reflexivity|]. cbn [labels].
  destruct (Byte.eqb c dot) eqn:E; [exfalso; apply Hn; apply byte_eqb_eq in E; subst; left; reflexivity|].
  rewrite IH; [reflexivity|]. intros X. apply Hn. right. exact X.
Qed.
Lemma labels_join ls : ls <> [] -> Forall no_dot ls -> labels (join ls) = ls.
Proof.
  induction ls as [|l r IH]; intros Hne Hf; [congruence|]. inversion Hf; subst. destruct r as [|l2 r].
  - cbn. apply labels_one. assumption.
  - rewrite (join_cons l (l2 :: r) ltac:(discriminate)), (labels_app_dot l _ H1). f_equal. apply IH; [discriminate | assumption].
Qed.
Lemma join_app a b : a <> [] -> b <> [] -> join (a ++ b) = join a ++ dot :: join b.
Proof.
  induction a as [|l r IH]; intros Ha Hb; [congruence|]. destruct r as [|l2 r].
  - cbn [app]. rewrite (join_cons l b Hb). reflexivity.
  - change ((l :: l2 :: r) ++ b) with (l :: ((l2 :: r) ++ b)).
    rewrite (join_cons l ((l2 :: r) ++ b) ltac:(cbn; discriminate)), (join_cons l (l2 :: r) ltac:(discriminate)), (IH ltac:(discriminate) Hb), <- app_assoc. reflexivity.
Qed.
Lemma join_inj a b : a <> [] -> b <> [] -> Forall no_dot a -> Forall no_dot b -> join a = join b -> a = b.
Proof. intros Ha Hb Fa Fb E. rewrite <- (labels_join a Ha Fa), <- (labels_join b Hb Fb), E. reflexivity. Qed.
Lemma Forall_skipn {A} (P : A -> Prop) n l : Forall P l -> Forall P (skipn n l).
Proof. rewrite !Forall_forall. intros H x Hx. apply H. rewrite <- (firstn_skipn n l). apply in_or_app. right. exact Hx. Qed.
Lemma Forall_firstn {A} (P : A -> Prop) n l : Forall P l -> Forall P (firstn n l).
Proof. rewrite !Forall_forall. intros H x Hx. apply H. rewrite <- (firstn_skipn n l). apply in_or_app. left. exact Hx. Qed.
Lemma skipn_ne {A} n (l : list A) : n < length l -> skipn n l <> [].
Proof. intros H E. apply (f_equal (@length A)) in E. rewrite skipn_length in E. cbn in E. lia. Qed.
Lemma firstn_ne {A} n (l : list A) : 0 < n -> l <> [] -> firstn n l <> [].
Proof. destruct n, l; cbn; intros; [lia..| | discriminate]. congruence. Qed.

(** ** Labels of valid names *)
Lemma alnum_cases c : is_alnum c = true -> c <> hyphen /\ c <> dot /\ c <> star.
Proof. intros H. repeat split; intros ->; vm_compute in H; discriminate H. Qed.
Lemma label_ok_host l : label_ok l = true <-> l = [star] \/ host_label l.
Proof.
  unfold label_ok. rewrite orb_true_iff, beqb_eq.
  assert (G : match l with [] => false | c :: r => is_alnum c && match r with [] => true | _ => (length r <=? 62) && forallb (fun x => is_alnum x || Byte.eqb x hyphen) (removelast r) && is_alnum (last r x00) end end = true <-> host_label l).
  { destruct l as [|c r].
    - split; [discriminate|]. intros ((X & _) & _). cbn in X. lia.
    - destruct r as [|c2 r].
      + split.
        * intros H. rewrite andb_true_r in H. unfold host_label. cbn. repeat split; [lia | lia | | |].
          -- intros x [<-|[]]. auto.
          -- exact (proj1 (alnum_cases c H)).
          -- exact (proj1 (alnum_cases c H)).
        * intros (_ & Hc & Hh & _). rewrite andb_true_r. destruct (Hc c ltac:(left; reflexivity)) as [E|E]; [exact E | cbn in Hh; congruence].
      + set (t := c2 :: r). assert (Ht : t <> []) by discriminate. clearbody t. rewrite !andb_true_iff, forallb_forall, Nat.leb_le.
        assert (Hl : last (c :: t) hyphen = last t x00).
        { destruct t; [congruence|]. cbn [last]. clear Ht. revert b. induction t as [|y t IH]; intros b; [reflexivity|]. cbn [last] in *. apply (IH y). }
        pose proof (app_removelast_last x00 Ht) as Hr.
        split.
        * intros (Hc & (Hlen & Hm) & Hx). unfold host_label. rewrite Hl. cbn [length hd]. repeat split; [lia | lia | | |].
          -- intros x [<-|Hin]; [auto|]. rewrite Hr in Hin. apply in_app_or in Hin as [Hin|[<-|[]]]; [|auto].
             specialize (Hm x Hin). apply orb_true_iff in Hm as [E|E]; [auto | right; apply byte_eqb_eq; exact E].
          -- exact (proj1 (alnum_cases c Hc)).
          -- exact (proj1 (alnum_cases _ Hx)).
        * intros ((_ & Hlen) & Hc & Hh & Hla). cbn [length hd] in *. rewrite Hl in Hla. repeat split.
          -- destruct (Hc c ltac:(left; reflexivity)) as [E|E]; [exact E | congruence].
          -- lia.
          -- intros x Hin. destruct (Hc x) as [E|E]; [right; rewrite Hr; apply in_or_app; left; exact Hin| rewrite E; reflexivity | subst; apply orb_true_iff; right; reflexivity].
          -- destruct (Hc (last t x00)) as [E|E]; [right; rewrite Hr at 2; apply in_or_app; right; left; reflexivity | exact E | congruence]. }
  rewrite G. reflexivity.
Qed.
Lemma host_no_dot l : host_label l -> no_dot l.
Proof. intros (_ & H & _) X. destruct (H dot X) as [E|E]; vm_compute in E; discriminate E. Qed.
Lemma host_no_star l : host_label l -> ~ In star l.
Proof. intros (_ & H & _) X. destruct (H star X) as [E|E]; vm_compute in E; discriminate E. Qed.
Lemma host_ne l : host_label l -> l <> [].
Proof. intros ((H & _) & _) ->. cbn in H. lia. Qed.
Lemma no_star_in s : no_star s = true <-> ~ In star s.
Proof.
  unfold no_star. rewrite forallb_forall. split.
  - intros H X. specialize (H star X). vm_compute in H. discriminate H.
  - intros H x Hx. apply negb_true_iff. destruct (Byte.eqb x star) eqn:E; [|reflexivity]. apply byte_eqb_eq in E. subst. contradiction.
Qed.
Lemma in_join (c : byte) (ls : list bytes) : In c (join ls) -> c = dot \/ exists l, In l ls /\ In c l.
Proof.
  induction ls as [|l r IH]; [intros []|]. destruct r as [|l2 r].
  - cbn. intros H. right. exists l. auto.
  - rewrite (join_cons l (l2 :: r) ltac:(discriminate)). intros H. apply in_app_or in H as [H|[H|H]].
    + right. exists l. split; [left; reflexivity | exact H].
    + left. congruence.
    + destruct (IH H) as [E|(x & H1 & H2)]; [auto|]. right. exists x. split; [right; exact H1 | exact H2].
Qed.
Lemma join_in (c : byte) (l : bytes) (ls : list bytes) : In l ls -> In c l -> In c (join ls).
Proof.
  induction ls as [|x r IH]; [intros []|]. intros Hl Hc. destruct r as [|l2 r].
  - destruct Hl as [<-|[]]. exact Hc.
  - rewrite (join_cons x (l2 :: r) ltac:(discriminate)). destruct Hl as [<-|Hl]; apply in_or_app; [left; exact Hc|]. right. right. exact (IH Hl Hc).
Qed.

(** A name passes the syntactic checks: labels. *)
Definition clean (ls : list bytes) : Prop := ls <> [] /\ Forall host_label ls.
Lemma clean_no_dot ls : Forall host_label ls -> Forall no_dot ls.
Proof. apply Forall_impl. intros a. apply host_no_dot. Qed.

Lemma syntax_ok d : viable d = true /\ forallb label_ok (labels d) = true <->
  exists ls, clean ls /\ (d = join ls \/ d = star :: dot :: join ls).
Proof.
  split.
  - intros [Hv Hl]. rewrite forallb_forall in Hl. unfold viable in Hv. apply orb_true_iff in Hv as [Hv|Hv].
    + apply no_star_in in Hv. exists (labels d). split; [|left; symmetry; apply join_labels]. split; [apply labels_ne|].
      apply Forall_forall. intros l Hin. destruct (proj1 (label_ok_host l) (Hl l Hin)) as [->|X]; [|exact X].
      exfalso. apply Hv. rewrite <- (join_labels d). apply (join_in star [star] (labels d) Hin). left. reflexivity.
    + destruct d as [|a [|b r]]; try discriminate Hv. rewrite !andb_true_iff in Hv. destruct Hv as ((Ha & Hb) & Hv).
      apply byte_eqb_eq in Ha. apply byte_eqb_eq in Hb. subst a b. apply no_star_in in Hv.
      exists (labels r). split; [|right; rewrite join_labels; reflexivity]. split; [apply labels_ne|].
      assert (Hlab : labels (star :: dot :: r) = [star] :: labels r).
      { change (star :: dot :: r) with ([star] ++ dot :: r). apply labels_app_dot. intros [X|[]]. discriminate X. }
      apply Forall_forall. intros l Hin. destruct (proj1 (label_ok_host l) (Hl l ltac:(rewrite Hlab; right; exact Hin))) as [->|X]; [|exact X].
      exfalso. apply Hv. rewrite <- (join_labels r). apply (join_in star [star] (labels r) Hin). left. reflexivity.
  - intros (ls & (Hne & Hf) & [->| ->]).
    + assert (Hns : ~ In star (join ls)).
      { intros X. apply in_join in X as [X|(l & X & Y)]; [discriminate X|]. rewrite Forall_forall in Hf. exact (host_no_star l (Hf l X) Y). }
      split; [unfold viable; apply orb_true_iff; left; apply no_star_in; exact Hns|].
      rewrite (labels_join ls Hne (clean_no_dot ls Hf)). apply forallb_forall. intros l Hin. apply label_ok_host. right. rewrite Forall_forall in Hf. auto.
    + assert (Hns : ~ In star (join ls)).
      { intros X. apply in_join in X as [X|(l & X & Y)]; [discriminate X|]. rewrite Forall_forall in Hf. exact (host_no_star l (Hf l X) Y). }
      split; [unfold viable; apply orb_true_iff; right; cbn; apply no_star_in; exact Hns|].
      change (star :: dot :: join ls) with ([star] ++ dot :: join ls). rewrite (labels_app_dot [star] (join ls) ltac:(intros [X|[]]; discriminate X)).
      rewrite (labels_join ls Hne (clean_no_dot ls Hf)). apply forallb_forall. intros l [<-|Hin]; apply label_ok_host; [left; reflexivity|]. right. rewrite Forall_forall in Hf. auto.
Qed.

(** ** Stripping *)
(** The labels that are left. *)
Definition strip_labels (ls : list bytes) : list bytes :=
  match ls with
  | l :: l2 :: r => if beqb l www_label then l2 :: r else ls
  | _ => ls
  end.
Lemma strip_labels_clean ls : clean ls -> clean (strip_labels ls).
Proof.
  intros [Hne Hf]. destruct ls as [|l [|l2 r]]; [congruence | split; assumption|]. cbn. destruct (beqb l www_label); [|split; assumption].
  inversion Hf; subst. split; [discriminate | assumption].
Qed.
Lemma firstn_join_www ls : clean ls -> strip_www (join ls) = join (strip_labels ls).
Proof.
  intros [Hne Hf]. destruct ls as [|l r]; [congruence|]. inversion Hf as [|x y Hl Hr]; subst. unfold strip_www. destruct r as [|l2 r].
  - cbn [join strip_labels]. destruct (4 <? length l); [|reflexivity]. cbn [andb]. destruct (beqb (firstn 4 l) www) eqn:E; [|reflexivity].
    exfalso. apply beqb_eq in E. apply (host_no_dot l Hl). rewrite <- (firstn_skipn 4 l), E. apply in_or_app. left. right. right. right. left. reflexivity.
  - rewrite (join_cons l (l2 :: r) ltac:(discriminate)). cbn [strip_labels]. destruct (beqb_spec l www_label) as [->|Hn].
    + assert (Hlen : 0 < length (join (l2 :: r))).
      { inversion Hr; subst. pose proof (host_ne l2 H1). destruct l2; [congruence|]. destruct r; cbn; lia. }
      replace (4 <? length (www_label ++ dot :: join (l2 :: r))) with true by (symmetry; apply Nat.ltb_lt; rewrite app_length; cbn [length www_label]; lia).
      reflexivity.
    + destruct (4 <? _); [|reflexivity]. cbn [andb]. destruct (beqb (firstn 4 _) www) eqn:E; [|reflexivity].
      exfalso. apply beqb_eq in E. apply Hn. pose proof (host_no_dot l Hl) as Hd.
      assert (L : labels (l ++ dot :: join (l2 :: r)) = l :: labels (join (l2 :: r))) by (apply labels_app_dot; exact Hd).
      rewrite <- (firstn_skipn 4 (l ++ dot :: join (l2 :: r))), E in L.
      change (www ++ skipn 4 (l ++ dot :: join (l2 :: r))) with (www_label ++ dot :: skipn 4 (l ++ dot :: join (l2 :: r))) in L.
      rewrite labels_app_dot in L; [congruence|]. intros [X|[X|[X|[]]]]; discriminate X.
Qed.
Lemma strip_clean d ls : clean ls -> d = join ls \/ d = star :: dot :: join ls -> strip d = join (strip_labels ls).
Proof.
  intros Hc H. unfold strip. rewrite <- (firstn_join_www ls Hc). f_equal. unfold strip_star. destruct H as [->| ->].
  - destruct (2 <? _); [|reflexivity]. cbn [andb]. destruct (beqb (firstn 2 (join ls)) [star; dot]) eqn:E; [|reflexivity].
    exfalso. apply beqb_eq in E. assert (X : In star (join ls)) by (rewrite <- (firstn_skipn 2 (join ls)), E; left; reflexivity).
    destruct Hc as [_ Hf]. apply in_join in X as [X|(l & X & Y)]; [discriminate X|]. rewrite Forall_forall in Hf. exact (host_no_star l (Hf l X) Y).
  - assert (Hlen : 0 < length (join ls)).
    { destruct Hc as [Hne Hf]. destruct ls as [|l r]; [congruence|]. inversion Hf; subst. pose proof (host_ne l H1). destruct l; [congruence|]. destruct r; cbn; lia. }
    replace (2 <? length (star :: dot :: join ls)) with true by (symmetry; apply Nat.ltb_lt; cbn; lia). reflexivity.
Qed.

(** ** Splitting *)
Lemma trim_exact a t : trim_suffix (a ++ t) t = a.
Proof.
  unfold trim_suffix. rewrite app_length. replace (length a + length t - length t) with (length a) by lia.
  rewrite (skipn_app_exact a t (length a) eq_refl), beqb_refl, (firstn_app_exact a t (length a) eq_refl).
  replace (length t <=? length a + length t) with true by (symmetry; apply Nat.leb_le; lia). reflexivity.
Qed.
Lemma trim_nothing t : t <> [] -> trim_suffix [] t = [].
Proof. destruct t; [congruence|]. reflexivity. Qed.
Lemma skipn_at {A} n (l : list A) x : nth_error l n = Some x -> skipn n l = x :: skipn (S n) l.
Proof. revert n. induction l as [|y l IH]; intros [|n] H; try discriminate H; cbn in *; [congruence | exact (IH n H)]. Qed.

Lemma firstn_at {A} n (l : list A) x : nth_error l n = Some x -> firstn (S n) l = firstn n l ++ [x].
Proof. revert n. induction l as [|y l IH]; intros [|n] H; try discriminate H; cbn in *; [congruence|]. f_equal. exact (IH n H). Qed.

Section Psl.
  Variable psl : bytes -> bytes * bool.
  Hypothesis whole : whole_labels psl.

  Lemma suffix_labels d : Forall no_dot (labels d) -> exists k, 1 <= k <= length (labels d) /\ labels (fst (psl d)) = skipn (length (labels d) - k) (labels d) /\ fst (psl d) = upper k d.
  Proof.
    intros Hd. destruct (whole d) as (k & Hk & E). exists k. split; [exact Hk|]. split; [|exact E]. rewrite E. apply labels_join.
    - apply skipn_ne. lia.
    - apply Forall_skipn. exact Hd.
  Qed.

  Lemma e2ld_spec ls k : clean ls -> 1 <= k <= length ls -> fst (psl (join ls)) = join (skipn (length ls - k) ls) ->
    e2ld psl (join ls) = if k <? length ls then Some (join (skipn (length ls - k - 1) ls)) else None.
  Proof.
    intros [Hne Hf] Hk E. unfold e2ld. pose proof (clean_no_dot ls Hf) as Hd.
    replace (has_empty_label (join ls)) with false.
    2:{ symmetry. unfold has_empty_label. rewrite (labels_join ls Hne Hd). match goal with |- existsb ?f ?a = false => destruct (existsb f a) eqn:X; [|reflexivity] end.
        apply existsb_exists in X as (l & X & Y). rewrite Forall_forall in Hf. destruct l; [|discriminate Y]. exfalso. exact (host_ne [] (Hf [] X) eq_refl). }
    cbn [andb]. rewrite E. destruct (Nat.ltb_spec k (length ls)) as [Hlt|Hge].
    - set (n := length ls) in *. assert (Hn : skipn (n - k) ls <> []) by (apply skipn_ne; fold n; lia).
      assert (Hm : firstn (n - k) ls <> []) by (apply firstn_ne; [lia | exact Hne]).
      assert (J : join ls = join (firstn (n - k) ls) ++ dot :: join (skipn (n - k) ls)) by (rewrite <- (join_app _ _ Hm Hn), firstn_skipn; reflexivity).
      set (p := join (firstn (n - k) ls)) in *. set (q := join (skipn (n - k) ls)) in *.
      rewrite J, app_length. cbn [length].
      replace (length p + S (length q) <=? length q) with false by (symmetry; apply Nat.leb_gt; lia).
      replace (length p + S (length q) - length q - 1) with (length p) by lia.
      rewrite nth_error_app2 by lia. rewrite Nat.sub_diag. cbn [nth_error]. change (Byte.eqb dot dot) with true. cbv iota.
      rewrite (firstn_app_exact p (dot :: q) (length p) eq_refl). unfold p at 2. rewrite (labels_join _ Hm (Forall_firstn _ _ _ Hd)).
      f_equal. set (i := n - k - 1) in *.
      destruct (nth_error ls i) as [x|] eqn:Ex; [|apply nth_error_None in Ex; fold n in Ex; lia].
      assert (F : firstn (n - k) ls = firstn i ls ++ [x]).
      { replace (n - k) with (S i) by lia. apply firstn_at. exact Ex. }
      rewrite F, last_last. rewrite (skipn_at i ls x Ex). replace (S i) with (n - k) by lia. rewrite (join_cons x _ Hn). fold q.
      unfold p. rewrite F. destruct (Nat.eq_dec i 0) as [->|Hi].
      + cbn [firstn app join]. rewrite Nat.sub_diag. reflexivity.
      + assert (Hfi : firstn i ls <> []) by (apply firstn_ne; [lia | exact Hne]).
        rewrite (join_app (firstn i ls) [x] Hfi ltac:(discriminate)). cbn [join]. rewrite !app_length. cbn [length].
        replace (length (join (firstn i ls)) + S (length x) - length x) with (length (join (firstn i ls) ++ [dot])) by (rewrite app_length; cbn; lia).
        replace ((join (firstn i ls) ++ dot :: x) ++ dot :: q) with ((join (firstn i ls) ++ [dot]) ++ x ++ dot :: q) by (rewrite <- !app_assoc; reflexivity).
        apply skipn_app_exact. reflexivity.
    - replace (length ls - k) with 0 by lia. cbn [skipn]. rewrite Nat.leb_refl. reflexivity.
  Qed.

  Lemma split_spec ls k : clean ls -> 1 <= k <= length ls -> fst (psl (join ls)) = join (skipn (length ls - k) ls) -> snd (psl (join ls)) = true ->
    split_e2ld psl (join ls) = if k <? length ls then Some (firstn (length ls - k - 1) ls ++ [join (skipn (length ls - k - 1) ls)]) else None.
  Proof.
    intros Hc Hk E Hi. unfold split_e2ld. rewrite Hi, (e2ld_spec ls k Hc Hk E). destruct (Nat.ltb_spec k (length ls)) as [Hlt|Hge]; [|reflexivity].
    destruct Hc as [Hne Hf]. pose proof (clean_no_dot ls Hf) as Hd. f_equal. f_equal. set (i := length ls - k - 1) in *.
    destruct (Nat.eq_dec i 0) as [->|Hi0].
    - cbn [firstn skipn]. replace (trim_suffix (join ls) (join ls)) with (@nil byte); [reflexivity|]. symmetry. exact (trim_exact [] (join ls)).
    - assert (Hfi : firstn i ls <> []) by (apply firstn_ne; [lia | exact Hne]).
      assert (Hsi : skipn i ls <> []) by (apply skipn_ne; lia).
      assert (J : join ls = (join (firstn i ls) ++ [dot]) ++ join (skipn i ls)).
      { rewrite <- app_assoc. cbn [app]. rewrite <- (join_app _ _ Hfi Hsi), firstn_skipn. reflexivity. }
      rewrite J, !trim_exact. rewrite (labels_join _ Hfi (Forall_firstn _ _ _ Hd)).
      destruct (join (firstn i ls)) eqn:X; [|reflexivity]. exfalso.
      assert (L : labels (join (firstn i ls)) = firstn i ls) by (apply labels_join; [exact Hfi | apply Forall_firstn; exact Hd]).
      rewrite X in L. cbn in L. assert (Y : In [] ls) by (rewrite <- (firstn_skipn i ls), <- L; left; reflexivity).
      rewrite Forall_forall in Hf. exact (host_ne [] (Hf [] Y) eq_refl).
  Qed.

  Lemma build_up_spec rr cl : cl <> [] -> build_up (join cl) rr = map (fun i => join (rev (firstn i rr) ++ cl)) (seq 1 (length rr)).
  Proof.
    revert cl. induction rr as [|l rr IH]; intros cl Hc; [reflexivity|]. cbn [build_up length seq map firstn rev app].
    assert (J : l ++ dot :: join cl = join (l :: cl)) by (symmetry; apply join_cons; exact Hc). rewrite J. f_equal.
    rewrite (IH (l :: cl) ltac:(discriminate)). rewrite <- (seq_shift (length rr) 1), map_map. apply map_ext. intros i. cbn [firstn rev]. rewrite <- app_assoc. reflexivity.
  Qed.

  Definition parts_of (ls : list bytes) (k : nat) : list bytes := map (fun j => join (skipn (length ls - j) ls)) (seq (S k) (length ls - k)).

  Lemma parse_icann ls k : clean ls -> 1 <= k < length ls ->
    (let r := firstn (length ls - k - 1) ls ++ [join (skipn (length ls - k - 1) ls)] in match rev r with [] => None | e :: rest => Some (e :: build_up e rest) end) = Some (parts_of ls k).
  Proof.
    intros Hc Hk. cbn zeta. rewrite rev_app_distr. cbn [rev app]. f_equal. set (i := length ls - k - 1) in *.
    rewrite build_up_spec by (apply skipn_ne; lia). unfold parts_of. replace (length ls - k) with (S i) by lia. cbn [seq map]. f_equal; [f_equal; f_equal; lia|].
    rewrite rev_length, firstn_length_le by lia. rewrite <- (seq_shift i (S k)). replace (S k) with (k + 1) by lia.
    assert (S1 : seq 1 i = map (fun j => j - k) (seq (k + 1) i)).
    { apply nth_ext with (d := 0) (d' := 0 - k); [rewrite map_length, !seq_length; reflexivity|]. intros m Hm. rewrite seq_length in Hm.
      rewrite (map_nth (fun j => j - k)), !seq_nth by lia. lia. }
    rewrite S1, !map_map. apply map_ext_in. intros j Hj. apply in_seq in Hj. f_equal.
    rewrite firstn_rev, rev_involutive, firstn_length_le by lia.
    rewrite <- (firstn_skipn i ls) at 4. rewrite skipn_app, firstn_length_le by lia. f_equal; [f_equal; lia|].
    replace (length ls - S j - i) with 0 by lia. reflexivity.
  Qed.
End Psl.
