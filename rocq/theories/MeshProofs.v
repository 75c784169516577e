(** Proofs about the mesh between the domain extractors and the domain batchers. *)
From Verif Require Import Base BaseLemmas SysModel SysProofs PipeModel PipeProofs PipeErrors JoinModel JoinProofs MeshModel.

Lemma upd2_same {A} (f : nat -> nat -> A) i j x : upd2 f i j x i j = x.
Proof. unfold upd2. rewrite !Nat.eqb_refl. reflexivity. Qed.
Lemma upd2_cases {A} (f : nat -> nat -> A) i j x a b : (a = i /\ b = j /\ upd2 f i j x a b = x) \/ ((a <> i \/ b <> j) /\ upd2 f i j x a b = f a b).
Proof.
  destruct (Nat.eq_dec a i) as [->|H1]; [destruct (Nat.eq_dec b j) as [->|H2]|].
  - left. split; [reflexivity | split; [reflexivity | apply upd2_same]].
  - right. split; [right; exact H2|]. unfold upd2. apply Nat.eqb_neq in H2. rewrite H2, andb_false_r. reflexivity.
  - right. split; [left; exact H1|]. unfold upd2. apply Nat.eqb_neq in H1. rewrite H1. reflexivity.
Qed.
Lemma upd_cases {A} (f : nat -> A) i x a : (a = i /\ upd f i x a = x) \/ (a <> i /\ upd f i x a = f a).
Proof. destruct (Nat.eq_dec a i) as [->|H]; [left; split; [reflexivity | apply upd_same] | right; split; [exact H | apply upd_other; exact H]]. Qed.
Lemma sumb_upd2_row {A} (h : A -> nat) n f i j x : j < n ->
  sumb n (fun b => h (upd2 f i j x i b)) + h (f i j) = sumb n (fun b => h (f i b)) + h x.
Proof.
  intros Hj. rewrite <- (sumb_upd h n (f i) j x Hj). f_equal. apply sumb_ext. intros b _. unfold upd2, upd. rewrite Nat.eqb_refl. reflexivity.
Qed.
Lemma sumb_upd2_other {A} (h : A -> nat) n f i j x a : a <> i -> sumb n (fun b => h (upd2 f i j x a b)) = sumb n (fun b => h (f a b)).
Proof. intros H. apply sumb_ext. intros b _. unfold upd2. apply Nat.eqb_neq in H. rewrite H. reflexivity. Qed.
Lemma sumb_upd2 {A} (h : A -> nat) n m f i j x : i < n -> j < m ->
  sumb n (fun a => sumb m (fun b => h (upd2 f i j x a b))) + h (f i j) = sumb n (fun a => sumb m (fun b => h (f a b))) + h x.
Proof.
  induction n as [|n IH]; [lia|]. intros H Hj. cbn. destruct (Nat.eq_dec i n) as [->|Hn].
  - pose proof (sumb_upd2_row h m f n j x Hj).
    rewrite (sumb_ext n (fun a => sumb m (fun b => h (upd2 f n j x a b))) (fun a => sumb m (fun b => h (f a b)))); [lia|]. intros a Ha. apply sumb_upd2_other. lia.
  - rewrite (sumb_upd2_other h m f i j x n) by lia. specialize (IH ltac:(lia) Hj). lia.
Qed.

(** How many elements of a list have a property *)
Definition cnt {A} (p : A -> bool) (l : list A) : nat := length (filter p l).
Lemma cnt_app {A} (p : A -> bool) l1 l2 : cnt p (l1 ++ l2) = cnt p l1 + cnt p l2.
Proof. unfold cnt. rewrite filter_app, app_length. reflexivity. Qed.
Lemma cnt_cons {A} (p : A -> bool) x l : cnt p (x :: l) = (if p x then 1 else 0) + cnt p l.
Proof. unfold cnt. cbn. destruct (p x); reflexivity. Qed.
Lemma cnt_nil {A} (p : A -> bool) : cnt p [] = 0.
Proof. reflexivity. Qed.
Lemma remove_split {A} k (l : list A) x : nth_error l k = Some x -> l = firstn k l ++ x :: skipn (S k) l.
Proof.
  revert l. induction k as [|k IH]; intros [|y l] H; try discriminate; cbn in *; [injection H as ->; reflexivity|]. f_equal. apply IH. exact H.
Qed.
Lemma cnt_remove {A} (p : A -> bool) k l x : nth_error l k = Some x -> cnt p l = cnt p (remove_at k l) + (if p x then 1 else 0).
Proof. intros H. rewrite (remove_split k l x H) at 1. unfold remove_at. rewrite !cnt_app, cnt_cons. lia. Qed.
Lemma length_remove {A} k (l : list A) x : nth_error l k = Some x -> length l = S (length (remove_at k l)).
Proof. intros H. rewrite (remove_split k l x H) at 1. unfold remove_at. rewrite !app_length. cbn. lia. Qed.
Lemma in_remove {A} k (l : list A) y : In y (remove_at k l) -> In y l.
Proof.
  unfold remove_at. intros H. apply in_app_or in H as [H|H]; [rewrite <- (firstn_skipn k l); apply in_or_app; left; exact H|].
  rewrite <- (firstn_skipn (S k) l). apply in_or_app. right. exact H.
Qed.
Lemma in_remove_other {A} k (l : list A) x y : nth_error l k = Some x -> In y l -> y <> x -> In y (remove_at k l).
Proof.
  intros H Hy Hn. rewrite (remove_split k l x H) in Hy. unfold remove_at. apply in_app_or in Hy as [Hy|[Hy|Hy]]; [apply in_or_app; auto | congruence | apply in_or_app; auto].
Qed.

Section Mesh.
  Context {D : Type}.
  Variable N : nat.
  Variable fails fails_end : nat -> list D -> option bytes.
  Notation mesh := (@mesh D).
  Notation ext := (@ext D).
  Notation bat := (@bat D).
  Notation step := (mesh_step N fails fails_end).

  (** ** The steps *)
  Inductive mtrans (c : mesh) : mesh -> Prop :=
  | M_read i r rest : i < N -> xpc (exts c i) = XRead -> xleft (exts c i) = r :: rest ->
      mtrans c (with_ext c i (mk_ext (sent_all (xtold (exts c i)) r) (xfound (exts c i)) (xtold (exts c i)) rest r (xsent (exts c i))))
  | M_end i : i < N -> xpc (exts c i) = XRead -> xleft (exts c i) = [] ->
      mtrans c (with_ext c i (mk_ext XBrk (xfound (exts c i)) (xtold (exts c i)) [] (xpend (exts c i)) (xsent (exts c i))))
  | M_send i k d j : i < N -> j < N -> xpc (exts c i) = XSend -> nth_error (xpend (exts c i)) k = Some (d, j) -> carries c j i = FIdle ->
      mtrans c (with_carry (with_ext c i (mk_ext (sent_all (xtold (exts c i)) (remove_at k (xpend (exts c i)))) (xfound (exts c i)) (xtold (exts c i))
        (xleft (exts c i)) (remove_at k (xpend (exts c i))) (xsent (exts c i) ++ [(d, j)]))) j i (FHold d))
  | M_hear i j e x : i < N -> j < N -> tells c i j = THold e -> listen (exts c i) [e] = Some x -> mtrans c (with_tell (with_ext c i x) i j TIdle)
  | M_hear_send i j k e x : i < N -> j < N -> tells c i j = THold e -> listen_send (exts c i) k [e] = Some x -> mtrans c (with_tell (with_ext c i x) i j TIdle)
  | M_closed i x : i < N -> (forall j, j < N -> tells c i j = TDone) -> listen (exts c i) [] = Some x -> mtrans c (with_ext c i x)
  | M_closed_send i k x : i < N -> (forall j, j < N -> tells c i j = TDone) -> listen_send (exts c i) k [] = Some x -> mtrans c (with_ext c i x)
  | M_carry j i d : i < N -> j < N -> carries c j i = FHold d -> bpc (bats c j) = BWork ->
      mtrans c (with_carry (with_bat c j (got fails j (bats c j) d)) j i FIdle)
  | M_carry_end j i : i < N -> j < N -> carries c j i = FIdle -> (xpc (exts c i) = XBrk \/ xpc (exts c i) = XDone) -> mtrans c (with_carry c j i FEnd)
  | M_bat_end j : j < N -> bpc (bats c j) = BWork -> (forall i, i < N -> carries c j i = FEnd) -> mtrans c (with_bat c j (got_end fails_end j (bats c j)))
  | M_take i j e : i < N -> j < N -> bpc (bats c j) = BErr e -> tells c i j = TIdle ->
      mtrans c (with_tell (with_bat c j (mk_bat BDone (brcvd (bats c j)) (bend (bats c j)))) i j (THold e))
  | M_tell_end i j : i < N -> j < N -> bpc (bats c j) = BDone -> tells c i j = TIdle -> mtrans c (with_tell c i j TDone).

  Lemma all_told_spec (c : mesh) i : all_told N c i = true <-> forall j, j < N -> tells c i j = TDone.
  Proof.
    unfold all_told. rewrite all_below_spec. split; intros H j Hj; specialize (H j Hj); [destruct (tells c i j); congruence | rewrite H; reflexivity].
  Qed.
  Lemma all_ended_spec (c : mesh) j : all_below N (fun i => match carries c j i with FEnd => true | _ => false end) = true <-> forall i, i < N -> carries c j i = FEnd.
  Proof.
    rewrite all_below_spec. split; intros H i Hi; specialize (H i Hi); [destruct (carries c j i); congruence | rewrite H; reflexivity].
  Qed.
  Lemma both i j : (i <? N) && (j <? N) = true -> i < N /\ j < N.
  Proof. intros H. apply andb_true_iff in H as [H1 H2]. apply Nat.ltb_lt in H1. apply Nat.ltb_lt in H2. auto. Qed.

  Lemma step_trans c a c' : step c a = Some c' -> mtrans c c'.
  Proof.
    intros H. destruct a; cbn [mesh_step] in H; cbn zeta in H.
    - destruct (xpc (exts c i)) eqn:E1; try discriminate. destruct (xleft (exts c i)) as [|r rest] eqn:E2; [discriminate|].
      destruct (i <? N) eqn:E3; [|discriminate]. apply Nat.ltb_lt in E3. injection H as <-. apply M_read; assumption.
    - destruct (xpc (exts c i)) eqn:E1; try discriminate. destruct (xleft (exts c i)) as [|r rest] eqn:E2; [|discriminate].
      destruct (i <? N) eqn:E3; [|discriminate]. apply Nat.ltb_lt in E3. injection H as <-. apply M_end; assumption.
    - destruct (xpc (exts c i)) eqn:E1; try discriminate. destruct (nth_error (xpend (exts c i)) k) as [[d j]|] eqn:E2; [|discriminate].
      destruct (carries c j i) eqn:E3; try discriminate. destruct ((i <? N) && (j <? N)) eqn:E4; [|discriminate]. apply both in E4 as [Hi Hj]. injection H as <-.
      apply M_send; assumption.
    - destruct (tells c i j) as [|e|] eqn:E1; try discriminate. destruct (listen (exts c i) [e]) as [x|] eqn:E2; [|discriminate].
      destruct ((i <? N) && (j <? N)) eqn:E4; [|discriminate]. apply both in E4 as [Hi Hj]. injection H as <-. exact (M_hear c i j e x Hi Hj E1 E2).
    - destruct (tells c i j) as [|e|] eqn:E1; try discriminate. destruct (listen_send (exts c i) k [e]) as [x|] eqn:E2; [|discriminate].
      destruct ((i <? N) && (j <? N)) eqn:E4; [|discriminate]. apply both in E4 as [Hi Hj]. injection H as <-. exact (M_hear_send c i j k e x Hi Hj E1 E2).
    - destruct (all_told N c i) eqn:E1; [|discriminate]. cbn [andb] in H. destruct (i <? N) eqn:E3; [|discriminate]. apply Nat.ltb_lt in E3.
      destruct (listen (exts c i) []) as [x|] eqn:E2; [|discriminate]. injection H as <-. apply M_closed; [assumption | apply all_told_spec; assumption | assumption].
    - destruct (all_told N c i) eqn:E1; [|discriminate]. cbn [andb] in H. destruct (i <? N) eqn:E3; [|discriminate]. apply Nat.ltb_lt in E3.
      destruct (listen_send (exts c i) k []) as [x|] eqn:E2; [|discriminate]. injection H as <-. apply (M_closed_send c i k); [assumption | apply all_told_spec; assumption | assumption].
    - destruct (carries c j i) as [|d|] eqn:E1; try discriminate. destruct (bpc (bats c j)) eqn:E2; try discriminate.
      destruct ((i <? N) && (j <? N)) eqn:E4; [|discriminate]. apply both in E4 as [Hi Hj]. injection H as <-. apply M_carry; assumption.
    - destruct (carries c j i) as [|d|] eqn:E1; try discriminate.
      destruct (xpc (exts c i)) eqn:E2; try discriminate; (destruct ((i <? N) && (j <? N)) eqn:E4; [|discriminate]); apply both in E4 as [Hi Hj]; injection H as <-; apply M_carry_end; auto.
    - destruct (bpc (bats c j)) eqn:E2; try discriminate. destruct (all_below N _) eqn:E1 in H; [|discriminate]. cbn [andb] in H. destruct (j <? N) eqn:E3; [|discriminate].
      apply Nat.ltb_lt in E3. injection H as <-. apply M_bat_end; [assumption | assumption | apply all_ended_spec; assumption].
    - destruct (bpc (bats c j)) as [|e|] eqn:E2; try discriminate. destruct (tells c i j) eqn:E1; try discriminate.
      destruct ((i <? N) && (j <? N)) eqn:E4; [|discriminate]. apply both in E4 as [Hi Hj]. injection H as <-. apply M_take; assumption.
    - destruct (bpc (bats c j)) as [|e|] eqn:E2; try discriminate. destruct (tells c i j) eqn:E1; try discriminate.
      destruct ((i <? N) && (j <? N)) eqn:E4; [|discriminate]. apply both in E4 as [Hi Hj]. injection H as <-. apply M_tell_end; assumption.
  Qed.

  Lemma listen_cases (x x' : ext) e : listen x e = Some x' ->
    (xpc x = XRead /\ x' = mk_ext XBrk e (xtold x) (xleft x) (xpend x) (xsent x)) \/
    (xpc x = XBrk /\ x' = mk_ext XDone (coalesce (xfound x) e) (xtold x) (xleft x) (xpend x) (xsent x)).
  Proof. unfold listen. destruct (xpc x); intros H; try discriminate; injection H as <-; auto. Qed.
  Lemma listen_send_cases (x x' : ext) k e : listen_send x k e = Some x' ->
    exists y, xpc x = XSend /\ nth_error (xpend x) k = Some y /\
      x' = mk_ext (sent_all true (remove_at k (xpend x))) e true (xleft x) (remove_at k (xpend x)) (xsent x).
  Proof. unfold listen_send. destruct (xpc x); try discriminate. destruct (nth_error (xpend x) k) as [y|]; [|discriminate]. intros H. injection H as <-. exists y. auto. Qed.

  (** ** Every step makes a number smaller *)
  Definition left_size (l : list (list (D * nat))) : nat := list_sum (map (fun r => 1 + 3 * length r) l).
  Definition rx (x : ext) : nat := (match xpc x with XRead => 3 | XSend => 3 | XBrk => 2 | XDone => 0 end) + 3 * length (xpend x) + left_size (xleft x).
  Definition rc (f : @carry D) : nat := match f with FIdle => 1 | FHold _ => 2 | FEnd => 0 end.
  Definition rb (b : bat) : nat := match bpc b with BWork => 3 | BErr _ => 2 | BDone => 0 end.
  Definition rt (t : tell) : nat := match t with TIdle => 1 | THold _ => 2 | TDone => 0 end.
  Definition rank (c : mesh) : nat :=
    sumb N (fun i => rx (exts c i)) + sumb N (fun j => sumb N (fun i => rc (carries c j i))) + sumb N (fun j => rb (bats c j)) +
    sumb N (fun i => sumb N (fun j => rt (tells c i j))).

  Lemma rank_ext c i x : i < N -> rank (with_ext c i x) + rx (exts c i) = rank c + rx x.
  Proof. intros H. unfold rank. cbn [with_ext exts carries bats tells]. pose proof (sumb_upd rx N (exts c) i x H). lia. Qed.
  Lemma rank_carry c j i x : j < N -> i < N -> rank (with_carry c j i x) + rc (carries c j i) = rank c + rc x.
  Proof. intros Hj Hi. unfold rank. cbn [with_carry exts carries bats tells]. pose proof (sumb_upd2 rc N N (carries c) j i x Hj Hi). lia. Qed.
  Lemma rank_bat c j x : j < N -> rank (with_bat c j x) + rb (bats c j) = rank c + rb x.
  Proof. intros H. unfold rank. cbn [with_bat exts carries bats tells]. pose proof (sumb_upd rb N (bats c) j x H). lia. Qed.
  Lemma rank_tell c i j x : i < N -> j < N -> rank (with_tell c i j x) + rt (tells c i j) = rank c + rt x.
  Proof. intros Hi Hj. unfold rank. cbn [with_tell exts carries bats tells]. pose proof (sumb_upd2 rt N N (tells c) i j x Hi Hj). lia. Qed.
  Lemma sent_all_le told p : match @sent_all D told p with XRead => 3 | XSend => 3 | XBrk => 2 | XDone => 0 end <= 3.
  Proof. unfold sent_all. destruct p; [destruct told|]; lia. Qed.

  Lemma rank_step c c' : mtrans c c' -> rank c' < rank c.
  Proof.
    intros H. destruct H.
    - pose proof (rank_ext c i (mk_ext (sent_all (xtold (exts c i)) r) (xfound (exts c i)) (xtold (exts c i)) rest r (xsent (exts c i))) H) as R.
      unfold rx in R. cbn [xpc xpend xleft] in R. rewrite H0, H1 in R. pose proof (sent_all_le (xtold (exts c i)) r). unfold left_size in R. cbn [map list_sum fold_right] in R.
      fold (list_sum (map (fun r => 1 + 3 * length r) rest)) in R. lia.
    - pose proof (rank_ext c i (mk_ext XBrk (xfound (exts c i)) (xtold (exts c i)) [] (xpend (exts c i)) (xsent (exts c i))) H) as R.
      unfold rx in R. cbn [xpc xpend xleft] in R. rewrite H0, H1 in R. lia.
    - set (x := mk_ext _ _ _ _ _ _). pose proof (rank_carry (with_ext c i x) j i (FHold d) H0 H) as R. pose proof (rank_ext c i x H) as R2.
      cbn [with_ext carries] in R. rewrite H3 in R. cbn [rc] in R. unfold rx in R2. subst x. cbn [xpc xpend xleft] in R2. rewrite H1 in R2.
      pose proof (length_remove _ _ _ H2). pose proof (sent_all_le (xtold (exts c i)) (remove_at k (xpend (exts c i)))). lia.
    - pose proof (rank_tell (with_ext c i x) i j TIdle H H0) as R. pose proof (rank_ext c i x H) as R2. cbn [with_ext tells] in R. rewrite H1 in R. cbn [rt] in R.
      apply listen_cases in H2 as [[E ->]|[E ->]]; unfold rx in R2; cbn [xpc xpend xleft] in R2; rewrite E in R2; lia.
    - pose proof (rank_tell (with_ext c i x) i j TIdle H H0) as R. pose proof (rank_ext c i x H) as R2. cbn [with_ext tells] in R. rewrite H1 in R. cbn [rt] in R.
      apply listen_send_cases in H2 as (y & E & E2 & ->). unfold rx in R2; cbn [xpc xpend xleft] in R2; rewrite E in R2. pose proof (length_remove _ _ _ E2).
      pose proof (sent_all_le true (remove_at k (xpend (exts c i)))). lia.
    - pose proof (rank_ext c i x H) as R2. apply listen_cases in H1 as [[E ->]|[E ->]]; unfold rx in R2; cbn [xpc xpend xleft] in R2; rewrite E in R2; lia.
    - pose proof (rank_ext c i x H) as R2. apply listen_send_cases in H1 as (y & E & E2 & ->). unfold rx in R2; cbn [xpc xpend xleft] in R2; rewrite E in R2.
      pose proof (length_remove _ _ _ E2). pose proof (sent_all_le true (remove_at k (xpend (exts c i)))). lia.
    - pose proof (rank_carry (with_bat c j (got fails j (bats c j) d)) j i FIdle H0 H) as R. pose proof (rank_bat c j (got fails j (bats c j) d) H0) as R2.
      cbn [with_bat carries] in R. rewrite H1 in R. cbn [rc] in R. assert (rb (got fails j (bats c j) d) <= 3) by (unfold rb, got; cbn [bpc]; destruct (fails j _); lia).
      unfold rb in R2 at 1. rewrite H2 in R2. lia.
    - pose proof (rank_carry c j i FEnd H0 H) as R. rewrite H1 in R. cbn [rc] in R. lia.
    - pose proof (rank_bat c j (got_end fails_end j (bats c j)) H) as R2. unfold rb in R2 at 1. rewrite H0 in R2.
      assert (rb (got_end fails_end j (bats c j)) <= 2) by (unfold rb, got_end; cbn [bpc]; destruct (fails_end j _); lia). lia.
    - set (b := mk_bat _ _ _). pose proof (rank_tell (with_bat c j b) i j (THold e) H H0) as R. pose proof (rank_bat c j b H0) as R2. cbn [with_bat tells] in R. rewrite H2 in R.
      cbn [rt] in R. unfold rb in R2. rewrite H1 in R2. subst b. cbn [bpc] in R2. lia.
    - pose proof (rank_tell c i j TDone H H0) as R. rewrite H2 in R. cbn [rt] in R. lia.
  Qed.

  (** ** What is sent arrives once, at the right batcher *)
  Definition held (p : D -> bool) (f : @carry D) : nat := match f with FHold d => if p d then 1 else 0 | _ => 0 end.
  Definition towards (p : D -> bool) (j : nat) (l : list (D * nat)) : nat := cnt (fun q => p (fst q) && (snd q =? j)) l.
  Definition delivered (c : mesh) : Prop := forall p j, j < N ->
    cnt p (brcvd (bats c j)) + sumb N (fun i => held p (carries c j i)) = sumb N (fun i => towards p j (xsent (exts c i))).

  Lemma sumb_same n f g : (forall i, i < n -> f i = g i) -> sumb n f = sumb n g. Proof. apply sumb_ext. Qed.
  Lemma sent_unchanged (f : nat -> ext) i x p j : xsent x = xsent (f i) -> sumb N (fun a => towards p j (xsent (upd f i x a))) = sumb N (fun a => towards p j (xsent (f a))).
  Proof. intros H. apply sumb_ext. intros a _. destruct (upd_cases f i x a) as [[-> ->]|[_ ->]]; [rewrite H|]; reflexivity. Qed.
  Lemma listen_sent (x x' : ext) e : listen x e = Some x' -> xsent x' = xsent x.
  Proof. intros H. apply listen_cases in H as [[_ ->]|[_ ->]]; reflexivity. Qed.
  Lemma listen_send_sent (x x' : ext) k e : listen_send x k e = Some x' -> xsent x' = xsent x.
  Proof. intros H. apply listen_send_cases in H as (y & _ & _ & ->). reflexivity. Qed.

  Lemma delivered_step c c' : delivered c -> mtrans c c' -> delivered c'.
  Proof.
    intros I H p j0 Hj0. specialize (I p j0 Hj0). destruct H; cbn [with_ext with_carry with_bat with_tell exts carries bats tells].
    - rewrite sent_unchanged by reflexivity. exact I.
    - rewrite sent_unchanged by reflexivity. exact I.
    - set (x := mk_ext _ _ _ _ _ _). pose proof (sumb_upd (fun y => towards p j0 (xsent y)) N (exts c) i x H) as R. cbn beta in R.
      assert (Ex : towards p j0 (xsent x) = towards p j0 (xsent (exts c i)) + (if p d && (j =? j0) then 1 else 0)).
      { subst x. cbn [xsent]. unfold towards. rewrite cnt_app, cnt_cons, cnt_nil. cbn [fst snd]. lia. }
      destruct (Nat.eq_dec j0 j) as [->|Hn].
      + pose proof (sumb_upd2_row (held p) N (carries c) j i (FHold d) H) as R2. rewrite H3 in R2. cbn [held] in R2. rewrite Nat.eqb_refl, andb_true_r in Ex. lia.
      + rewrite sumb_upd2_other by exact Hn. replace (j =? j0) with false in Ex by (symmetry; apply Nat.eqb_neq; auto). rewrite andb_false_r in Ex. lia.
    - rewrite sent_unchanged by (apply (listen_sent _ _ _ H2)). exact I.
    - rewrite sent_unchanged by (apply (listen_send_sent _ _ _ _ H2)). exact I.
    - rewrite sent_unchanged by (apply (listen_sent _ _ _ H1)). exact I.
    - rewrite sent_unchanged by (apply (listen_send_sent _ _ _ _ H1)). exact I.
    - destruct (Nat.eq_dec j0 j) as [->|Hn].
      + rewrite upd_same. cbn [got brcvd]. rewrite cnt_app, cnt_cons, cnt_nil. pose proof (sumb_upd2_row (held p) N (carries c) j i FIdle H) as R2. rewrite H1 in R2. cbn [held] in R2. lia.
      + rewrite upd_other by exact Hn. rewrite sumb_upd2_other by exact Hn. exact I.
    - destruct (Nat.eq_dec j0 j) as [->|Hn].
      + pose proof (sumb_upd2_row (held p) N (carries c) j i FEnd H) as R2. rewrite H1 in R2. cbn [held] in R2. lia.
      + rewrite sumb_upd2_other by exact Hn. exact I.
    - destruct (upd_cases (bats c) j (got_end fails_end j (bats c j)) j0) as [[-> ->]|[_ ->]]; exact I.
    - destruct (upd_cases (bats c) j (mk_bat BDone (brcvd (bats c j)) (bend (bats c j))) j0) as [[-> ->]|[_ ->]]; exact I.
    - exact I.
  Qed.

  (** Nothing is sent twice, and nothing that the extractor did not extract *)
  Section Work.
    Variable work : nat -> list (list (D * nat)).
    Definition rest_of (q : D * nat -> bool) (x : ext) : nat := cnt q (xsent x) + cnt q (xpend x) + cnt q (concat (xleft x)).
    Definition accounted (c : mesh) : Prop := forall q i, rest_of q (exts c i) <= cnt q (concat (work i)).

    Lemma accounted_step c c' : (forall i, xpc (exts c i) = XRead -> xpend (exts c i) = []) -> accounted c -> mtrans c c' -> accounted c'.
    Proof.
      intros Z I H q i0. specialize (I q i0). destruct H; cbn [with_ext with_carry with_bat with_tell exts carries bats tells]; try exact I;
        match goal with |- rest_of q (upd (exts c) ?a ?x i0) <= _ => destruct (upd_cases (exts c) a x i0) as [[-> E]|[_ E]]; rewrite E; clear E; [|exact I] end;
        unfold rest_of in *.
      - cbn [xsent xpend xleft]. rewrite H1, (Z i H0) in I. cbn [concat] in I. rewrite cnt_app, cnt_nil in I. lia.
      - cbn [xsent xpend xleft]. rewrite H1 in I. exact I.
      - cbn [xsent xpend xleft]. rewrite cnt_app, cnt_cons, cnt_nil. rewrite (cnt_remove q k _ _ H2) in I. lia.
      - apply listen_cases in H2 as [[_ ->]|[_ ->]]; exact I.
      - apply listen_send_cases in H2 as (y & _ & E2 & ->). cbn [xsent xpend xleft]. rewrite (cnt_remove q k _ _ E2) in I. lia.
      - apply listen_cases in H1 as [[_ ->]|[_ ->]]; exact I.
      - apply listen_send_cases in H1 as (y & _ & E2 & ->). cbn [xsent xpend xleft]. rewrite (cnt_remove q k _ _ E2) in I. lia.
    Qed.

    Definition pending (c : mesh) : Prop := forall i, xpc (exts c i) <> XSend -> xpend (exts c i) = [].
    Lemma sent_all_pend told (p : list (D * nat)) : sent_all told p <> XSend -> p = [].
    Proof. unfold sent_all. destruct p; [reflexivity | intros H; contradiction H; reflexivity]. Qed.
    Lemma pending_step c c' : pending c -> mtrans c c' -> pending c'.
    Proof.
      intros I H i0. pose proof (I i0) as J. destruct H; cbn [with_ext with_carry with_bat with_tell exts carries bats tells]; try exact J;
        match goal with |- xpc (upd (exts c) ?a ?x i0) <> _ -> _ => destruct (upd_cases (exts c) a x i0) as [[-> E]|[_ E]]; rewrite E; clear E; [|exact J] end.
      - cbn [xpc xpend]. apply sent_all_pend.
      - cbn [xpc xpend]. intros _. apply J. congruence.
      - cbn [xpc xpend]. apply sent_all_pend.
      - apply listen_cases in H2 as [[E ->]|[E ->]]; cbn [xpc xpend]; intros _; apply J; congruence.
      - apply listen_send_cases in H2 as (y & _ & E2 & ->). cbn [xpc xpend]. apply sent_all_pend.
      - apply listen_cases in H1 as [[E ->]|[E ->]]; cbn [xpc xpend]; intros _; apply J; congruence.
      - apply listen_send_cases in H1 as (y & _ & E2 & ->). cbn [xpc xpend]. apply sent_all_pend.
    Qed.

    (** ** No error is invented *)
    Definition failed (c : mesh) (j : nat) (e : bytes) : Prop :=
      bpc (bats c j) <> BWork /\ (if bend (bats c j) then fails_end j (brcvd (bats c j)) = Some e else fails j (brcvd (bats c j)) = Some e).
    Definition blamed (c : mesh) (e : bytes) : Prop := exists j, j < N /\ failed c j e.
    Definition honest (c : mesh) : Prop :=
      (forall j e, bpc (bats c j) = BErr e -> failed c j e) /\ (forall i j e, j < N -> tells c i j = THold e -> failed c j e) /\
      (forall i e, In e (xfound (exts c i)) -> blamed c e) /\ (forall j, bpc (bats c j) = BWork -> bend (bats c j) = false).

    Lemma failed_mono c c' j e : (bpc (bats c j) <> BWork -> bpc (bats c' j) <> BWork /\ brcvd (bats c' j) = brcvd (bats c j) /\ bend (bats c' j) = bend (bats c j)) ->
      failed c j e -> failed c' j e.
    Proof. intros H [F1 F2]. destruct (H F1) as (H1 & H2 & H3). split; [exact H1|]. rewrite H2, H3. exact F2. Qed.
    Lemma bats_mono c c' j : mtrans c c' -> bpc (bats c j) <> BWork -> bpc (bats c' j) <> BWork /\ brcvd (bats c' j) = brcvd (bats c j) /\ bend (bats c' j) = bend (bats c j).
    Proof.
      intros H W. destruct H; cbn [with_ext with_carry with_bat with_tell exts carries bats tells]; try (split; [exact W | split; reflexivity]).
      - match goal with |- context [upd (bats c) ?a ?x j] => destruct (upd_cases (bats c) a x j) as [[-> E]|[_ E]]; rewrite E end; [congruence | split; [exact W | split; reflexivity]].
      - match goal with |- context [upd (bats c) ?a ?x j] => destruct (upd_cases (bats c) a x j) as [[-> E]|[_ E]]; rewrite E end; [congruence | split; [exact W | split; reflexivity]].
      - match goal with |- context [upd (bats c) ?a ?x j] => destruct (upd_cases (bats c) a x j) as [[-> E]|[_ E]]; rewrite E end; cbn; [split; [discriminate | split; reflexivity] | split; [exact W | split; reflexivity]].
    Qed.
    Lemma failed_step c c' j e : mtrans c c' -> failed c j e -> failed c' j e.
    Proof. intros H. apply failed_mono. apply bats_mono. exact H. Qed.
    Lemma blamed_step c c' e : mtrans c c' -> blamed c e -> blamed c' e.
    Proof. intros H (j & Hj & F). exists j. split; [exact Hj | exact (failed_step c c' j e H F)]. Qed.

    Lemma honest_step c c' : honest c -> mtrans c c' -> honest c'.
    Proof.
      intros (I1 & I2 & I3 & I4) H. split; [|split; [|split]].
      - intros j e Hb. destruct (bpc (bats c j)) eqn:Eb.
        + destruct H; cbn [with_ext with_carry with_bat with_tell exts carries bats tells] in *; try congruence.
          * unfold failed. cbn [with_carry with_bat bats]. destruct (upd_cases (bats c) j0 (got fails j0 (bats c j0) d) j) as [[-> E]|[_ E]]; rewrite E in *; [|congruence].
            unfold got in *. cbn [bpc brcvd bend] in *. destruct (fails j0 _) eqn:Ef; [|discriminate]. injection Hb as ->. split; [discriminate | reflexivity].
          * unfold failed. cbn [with_carry with_bat bats]. destruct (upd_cases (bats c) j0 (got_end fails_end j0 (bats c j0)) j) as [[-> E]|[_ E]]; rewrite E in *; [|congruence].
            unfold got_end in *. cbn [bpc brcvd bend] in *. destruct (fails_end j0 _) eqn:Ef; [|discriminate]. injection Hb as ->. split; [discriminate | reflexivity].
          * match type of Hb with context [upd (bats c) ?a ?x j] => destruct (upd_cases (bats c) a x j) as [[-> E]|[_ E]]; rewrite E in Hb end; [discriminate | congruence].
        + assert (e0 = e) as ->; [|exact (failed_step c c' j e H (I1 j e Eb))].
          destruct H; cbn [with_ext with_carry with_bat with_tell exts carries bats tells] in Hb; try congruence;
            (match type of Hb with context [upd (bats c) ?a ?x j] => destruct (upd_cases (bats c) a x j) as [[-> E]|[_ E]]; rewrite E in Hb end; [|congruence]); try congruence. discriminate.
        + exfalso. destruct H; cbn [with_ext with_carry with_bat with_tell exts carries bats tells] in Hb; try congruence;
            (match type of Hb with context [upd (bats c) ?a ?x j] => destruct (upd_cases (bats c) a x j) as [[-> E]|[_ E]]; rewrite E in Hb end; [|congruence]); try congruence.
      - intros i j e Hj Ht. destruct H; cbn [with_ext with_carry with_bat with_tell exts carries bats tells] in Ht;
          try (eapply failed_step; [|exact (I2 i j e Hj Ht)]; econstructor; eassumption).
        + destruct (upd2_cases (tells c) i0 j0 TIdle i j) as [(_ & _ & E)|[_ E]]; rewrite E in Ht; [discriminate|].
          eapply failed_step; [|exact (I2 i j e Hj Ht)]. eapply M_hear; eassumption.
        + destruct (upd2_cases (tells c) i0 j0 TIdle i j) as [(_ & _ & E)|[_ E]]; rewrite E in Ht; [discriminate|].
          eapply failed_step; [|exact (I2 i j e Hj Ht)]. eapply M_hear_send; eassumption.
        + destruct (upd2_cases (tells c) i0 j0 (THold e0) i j) as [(_ & -> & E)|[_ E]]; rewrite E in Ht.
          * injection Ht as ->. eapply failed_step; [|exact (I1 j0 e H1)]. apply M_take; assumption.
          * eapply failed_step; [|exact (I2 i j e Hj Ht)]. apply M_take; assumption.
        + destruct (upd2_cases (tells c) i0 j0 TDone i j) as [(_ & _ & E)|[_ E]]; rewrite E in Ht; [discriminate|].
          eapply failed_step; [|exact (I2 i j e Hj Ht)]. apply M_tell_end; assumption.
      - intros i e He. assert (X : In e (xfound (exts c i)) \/ (exists j, j < N /\ tells c i j = THold e)).
        { destruct H; cbn [with_ext with_carry with_bat with_tell exts carries bats tells] in He; try (left; exact He);
            (match type of He with context [upd (exts c) ?a ?x i] => destruct (upd_cases (exts c) a x i) as [[-> E]|[_ E]]; rewrite E in He end; [|left; exact He]).
          - left. exact He.
          - left. exact He.
          - left. exact He.
          - apply listen_cases in H2 as [[_ ->]|[_ ->]]; cbn [xfound] in He.
            + destruct He as [<-|[]]. right. exists j. auto.
            + apply coalesce_in in He as [He|[<-|[]]]; [left; exact He | right; exists j; auto].
          - apply listen_send_cases in H2 as (y & _ & _ & ->). cbn [xfound] in He. destruct He as [<-|[]]. right. exists j. auto.
          - apply listen_cases in H1 as [[_ ->]|[_ ->]]; cbn [xfound] in He; [destruct He|]. apply coalesce_in in He as [He|[]]. left. exact He.
          - apply listen_send_cases in H1 as (y & _ & _ & ->). destruct He. }
        apply (blamed_step c c' e H). destruct X as [X|(j & Hj & X)]; [exact (I3 i e X) | exists j; split; [exact Hj | exact (I2 i j e Hj X)]].
      - intros j Hb. destruct H; cbn [with_ext with_carry with_bat with_tell exts carries bats tells] in *; try (apply I4; exact Hb);
          (match type of Hb with context [upd (bats c) ?a ?x j] => destruct (upd_cases (bats c) a x j) as [[-> E]|[_ E]]; rewrite E in * end; [|apply I4; exact Hb]).
        + reflexivity.
        + unfold got_end in Hb. cbn [bpc] in Hb. destruct (fails_end j0 _); discriminate.
        + discriminate.
    Qed.
  End Work.
End Mesh.
