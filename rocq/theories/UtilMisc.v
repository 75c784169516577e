(** Proofs for deduplication, error coalescing, durations, time of day, id sets and chain unfolding. *)
From Coq Require Import Permutation Sorted ZArith.
From Verif Require Import Base BaseLemmas UtilModel UtilSort.

(** ** DeduplicateSlice *)
Section Dedup.
  Context {A T : Type}.
  Variable d : A.
  Variable eqb : T -> T -> bool.
  Hypothesis eqb_ok : forall x y, eqb x y = true <-> x = y.
  Variable val : list A -> T.
  Notation row := (row d).

  Definition rows (cols : list (list A)) : list (list A) := map (fun i => row i cols) (seq 0 (length (hd [] cols))).
  Definition rect (n : nat) (cols : list (list A)) : Prop := Forall (fun c => length c = n) cols.

  Lemma seen_In e l : existsb (eqb e) l = true <-> In e l.
  Proof.
    rewrite existsb_exists. split.
    - intros (x & Hx & Hq). apply eqb_ok in Hq. subst. exact Hx.
    - intros Hi. exists e. split; [exact Hi|]. apply eqb_ok. reflexivity.
  Qed.
  Lemma row_copy N to from j cols : rect N cols -> to < N ->
    row j (copy_elem d to from cols) = if Nat.eqb j to then row from cols else row j cols.
  Proof.
    intros Hr Ht. unfold UtilModel.row, copy_elem. rewrite map_map.
    destruct (Nat.eqb j to) eqn:Hj; apply map_ext_in; intros c Hc; unfold rect in Hr; rewrite Forall_forall in Hr;
      specialize (Hr c Hc); rewrite nth_set_in by lia; rewrite Hj; reflexivity.
  Qed.
  Lemma rect_copy N to from cols : rect N cols -> rect N (copy_elem d to from cols).
  Proof.
    unfold rect, copy_elem. rewrite !Forall_forall. intros Hr c Hc. apply in_map_iff in Hc as (c' & <- & Hc').
    rewrite set_nth_length. auto.
  Qed.

  Definition vals (n : nat) (cols : list (list A)) : list T := map (fun p => val (row p cols)) (seq 0 n).
  Lemma In_vals n cols x : In x (vals n cols) <-> exists p, p < n /\ val (row p cols) = x.
  Proof.
    unfold vals. rewrite in_map_iff. split.
    - intros (p & Hq & Hp). apply in_seq in Hp. exists p. split; [lia | exact Hq].
    - intros (p & Hp & Hq). exists p. split; [exact Hq|]. apply in_seq. lia.
  Qed.
  Lemma vals_S n cols : vals (S n) cols = vals n cols ++ [val (row n cols)].
  Proof. unfold vals. rewrite seq_S, map_app. reflexivity. Qed.
  Lemma vals_ext n cols cols' : (forall p, p < n -> row p cols = row p cols') -> vals n cols = vals n cols'.
  Proof. intros Hq. apply map_ext_in. intros p Hp. apply in_seq in Hp. rewrite Hq; [reflexivity | lia]. Qed.

  Lemma unique_loop_ok N orig fuel : forall i n seen cols,
    n - i <= fuel -> i <= n -> n <= N -> rect N cols -> 
    (forall x, In x seen <-> In x (vals i cols)) -> NoDup (vals i cols) ->
    (forall p, p < n -> In (row p cols) orig) ->
    (forall r, In r orig -> In (val r) (vals n cols)) ->
    exists n' cols', unique_loop d eqb val fuel i n seen cols = (n', cols') /\ n' <= N /\ length cols' = length cols /\ rect N cols' /\
      NoDup (vals n' cols') /\ (forall p, p < n' -> In (row p cols') orig) /\ (forall r, In r orig -> In (val r) (vals n' cols')).
  Proof.
    induction fuel as [|fuel IH]; intros i n seen cols Hf Hi Hn Hr Hs Hnd Hin Hall.
    { cbn [unique_loop]. replace i with n in * by lia. exists n, cols. auto 8. }
    cbn [unique_loop]. destruct (Nat.leb_spec n i) as [Hle|Hlt].
    { replace i with n in * by lia. exists n, cols. auto 8. }
    destruct (existsb (eqb (val (row i cols))) seen) eqn:He.
    - apply seen_In, Hs in He.
      assert (Hrow : forall p, p < i -> row p (copy_elem d i (n - 1) cols) = row p cols).
      { intros p Hp. rewrite (row_copy N) by (auto; lia). destruct (Nat.eqb_spec p i); [lia | reflexivity]. }
      assert (Hv : vals i (copy_elem d i (n - 1) cols) = vals i cols) by (apply vals_ext; exact Hrow).
      destruct (IH i (n - 1) seen (copy_elem d i (n - 1) cols)) as (n' & cols' & -> & H1 & H2 & H3 & H4 & H5 & H6).
      + lia.
      + lia.
      + lia.
      + apply rect_copy. exact Hr.
      + rewrite Hv. exact Hs.
      + rewrite Hv. exact Hnd.
      + intros p Hp. rewrite (row_copy N) by (auto; lia). destruct (Nat.eqb p i); apply Hin; lia.
      + intros r Hro. specialize (Hall r Hro). apply In_vals in Hall as (p & Hp & Hq). apply In_vals in He as (q & Hqi & Heq).
        apply In_vals. destruct (Nat.eq_dec p i) as [->|Hpi].
        * exists q. split; [lia|]. rewrite Hrow by exact Hqi. congruence.
        * destruct (Nat.eq_dec p (n - 1)) as [->|Hpn].
          -- exists i. split; [lia|]. rewrite (row_copy N) by (auto; lia). rewrite Nat.eqb_refl. exact Hq.
          -- exists p. split; [lia|]. rewrite (row_copy N) by (auto; lia). destruct (Nat.eqb_spec p i); [lia | exact Hq].
      + exists n', cols'. unfold copy_elem in H2. rewrite map_length in H2. auto 8.
    - apply IH; auto; try lia.
      + intros x. rewrite vals_S. cbn [In]. rewrite in_app_iff, Hs. cbn [In]. tauto.
      + rewrite vals_S.
        apply Permutation_NoDup with (val (row i cols) :: vals i cols); [apply Permutation_cons_append|].
        constructor; [|exact Hnd]. intros Hc. apply Hs, seen_In in Hc. congruence.
  Qed.

  Theorem make_unique_ok cols N : cols <> [] -> rect N cols ->
    exists n', let r := make_unique d eqb val cols in
    length r = length cols /\ rect n' r /\ NoDup (map val (rows r)) /\ incl (rows r) (rows cols) /\
    forall x, In x (rows cols) -> In (val x) (map val (rows r)).
  Proof.
    intros Hne Hr. destruct cols as [|c0 cs] eqn:Ec; [congruence|]. rewrite <- Ec in *.
    assert (Hhd : length (hd [] cols) = N) by (rewrite Ec in *; inversion Hr; subst; reflexivity).
    unfold make_unique. rewrite Hhd. destruct (Nat.eqb_spec N 0) as [H0|H0].
    - exists N. cbv zeta. unfold rows. rewrite Hhd, H0. cbn. split; [reflexivity|]. split; [rewrite <- H0; exact Hr|]. split; [constructor|]. split; [apply incl_refl | auto].
    - destruct (unique_loop_ok N (rows cols) N 1 N [val (row 0 cols)] cols) as (n' & cols' & -> & H1 & H2 & H3 & H4 & H5 & H6); try lia; auto.
      + intros x. unfold vals. cbn. tauto.
      + unfold vals. cbn. repeat constructor. auto.
      + intros p Hp. unfold rows. apply in_map_iff. exists p. split; [reflexivity|]. rewrite Hhd. apply in_seq. lia.
      + intros r Hro. unfold rows in Hro. apply in_map_iff in Hro as (p & <- & Hp). rewrite Hhd in Hp. apply in_seq in Hp.
        apply In_vals. exists p. split; [lia | reflexivity].
      + exists n'. cbv zeta.
        assert (Hrc : rect n' (map (firstn n') cols')).
        { unfold rect in *. rewrite Forall_forall in *. intros c Hc. apply in_map_iff in Hc as (c' & <- & Hc').
          rewrite firstn_length, (H3 c' Hc'). lia. }
        assert (Hrow : forall p, p < n' -> row p (map (firstn n') cols') = row p cols').
        { intros p Hp. unfold UtilModel.row. rewrite map_map. apply map_ext_in. intros c Hc.
          unfold rect in H3. rewrite Forall_forall in H3. specialize (H3 c Hc).
          rewrite <- (firstn_skipn n' c) at 2. rewrite app_nth1; [reflexivity | rewrite firstn_length; lia]. }
        assert (Hhd' : length (hd [] (map (firstn n') cols')) = n').
        { destruct cols' as [|c cs']; [rewrite Ec in H2; discriminate|]. inversion Hrc; subst. assumption. }
        assert (Hrv : map val (rows (map (firstn n') cols')) = vals n' cols').
        { unfold rows, vals. rewrite Hhd', map_map. apply map_ext_in. intros p Hp. apply in_seq in Hp. rewrite Hrow; [reflexivity | lia]. }
        rewrite Hrv. split; [rewrite map_length; exact H2|]. split; [exact Hrc|]. split; [exact H4|]. split; [|exact H6].
        intros x Hx. unfold rows in Hx. rewrite Hhd' in Hx. apply in_map_iff in Hx as (p & <- & Hp). apply in_seq in Hp.
        rewrite Hrow by lia. apply H5. lia.
  Qed.
End Dedup.

(** ** ErrorsCoalesce *)
Fixpoint flatten (e : error) : list bytes :=
  match e with
  | Plain m => [m]
  | Coalesced errs => flat_map (fun o => match o with None => [] | Some e' => flatten e' end) errs
  end.
Definition messages (errs : list (option error)) : list bytes :=
  flat_map (fun o => match o with None => [] | Some e => flatten e end) errs.
Definition add1 (acc : list bytes) (m : bytes) : list bytes := if existsb (beqb m) acc then acc else acc ++ [m].

Lemma add_error_flat : forall e acc, add_error acc e = fold_left add1 (flatten e) acc.
Proof.
  fix IH 1. intros [m|errs] acc; [reflexivity|]. cbn [add_error flatten].
  revert acc. induction errs as [|[e|] errs IHl]; intros acc; cbn [flat_map].
  - reflexivity.
  - rewrite fold_left_app. rewrite <- IH. apply IHl.
  - apply IHl.
Qed.
Lemma coalesce_flat errs acc :
  fold_left (fun acc e => match e with None => acc | Some e' => add_error acc e' end) errs acc = fold_left add1 (messages errs) acc.
Proof.
  revert acc. induction errs as [|[e|] errs IH]; intros acc; cbn [fold_left messages flat_map].
  - reflexivity.
  - rewrite fold_left_app, <- add_error_flat. apply IH.
  - apply IH.
Qed.

Lemma bmem_In m l : existsb (beqb m) l = true <-> In m l.
Proof.
  rewrite existsb_exists. split.
  - intros (x & Hx & Hq). apply beqb_eq in Hq. subst. exact Hx.
  - intros Hi. exists m. split; [exact Hi | apply beqb_refl].
Qed.
Lemma add1_spec l : forall acc, NoDup acc ->
  NoDup (fold_left add1 l acc) /\ (forall m, In m (fold_left add1 l acc) <-> In m acc \/ In m l) /\
  exists suf, fold_left add1 l acc = acc ++ suf.
Proof.
  induction l as [|x l IH]; intros acc Hn; cbn [fold_left].
  - split; [exact Hn|]. split; [cbn; tauto|]. exists []. symmetry. apply app_nil_r.
  - unfold add1 at 2 4 6. destruct (existsb (beqb x) acc) eqn:He.
    + apply bmem_In in He. destruct (IH acc Hn) as (H1 & H2 & H3). split; [exact H1|]. split; [|exact H3].
      intros m. rewrite H2. cbn [In]. split; [tauto|]. intros [?|[<-|?]]; auto.
    + assert (Hni : ~ In x acc) by (intros Hc; apply bmem_In in Hc; congruence).
      destruct (IH (acc ++ [x])) as (H1 & H2 & suf & H3).
      { apply Permutation_NoDup with (x :: acc); [apply Permutation_cons_append|]. constructor; assumption. }
      split; [exact H1|]. split; [|exists (x :: suf); rewrite H3, <- app_assoc; reflexivity].
      intros m. rewrite H2, in_app_iff. cbn [In]. tauto.
Qed.

Theorem coalesce_none errs : errors_coalesce errs = None <-> messages errs = [].
Proof.
  unfold errors_coalesce. rewrite coalesce_flat. destruct (add1_spec (messages errs) [] ltac:(constructor)) as (_ & Hm & _).
  destruct (fold_left add1 (messages errs) []) as [|x l] eqn:Hq; split; intros He; try reflexivity; try discriminate.
  - destruct (messages errs) as [|y ys]; [reflexivity|]. exfalso. apply (proj2 (Hm y)). right. left. reflexivity.
  - rewrite He in Hm. exfalso. destruct (proj1 (Hm x)) as [[]|[]]. left. reflexivity.
Qed.
Theorem coalesce_some errs l : errors_coalesce errs = Some l ->
  NoDup l /\ (forall m, In m l <-> In m (messages errs)).
Proof.
  unfold errors_coalesce. rewrite coalesce_flat. destruct (add1_spec (messages errs) [] ltac:(constructor)) as (Hn & Hm & _).
  destruct (fold_left add1 (messages errs) []) as [|x xs] eqn:Hq; [discriminate|]. intros He. injection He as <-.
  split; [exact Hn|]. intros m. rewrite Hm. cbn [In]. tauto.
Qed.
(** Order of first appearance: coalescing more errors only appends. *)
Theorem coalesce_prefix errs more l l' : errors_coalesce errs = Some l -> errors_coalesce (errs ++ more) = Some l' ->
  exists suf, l' = l ++ suf.
Proof.
  unfold errors_coalesce. rewrite !coalesce_flat. unfold messages. rewrite flat_map_app, fold_left_app.
  destruct (add1_spec (messages errs) [] ltac:(constructor)) as (Hn & _).
  destruct (add1_spec (messages more) (fold_left add1 (messages errs) []) Hn) as (_ & _ & suf & Hs).
  unfold messages in *. rewrite Hs.
  destruct (fold_left add1 (flat_map _ errs) []) as [|x xs]; [discriminate|]. intros He He'. injection He as <-. injection He' as <-.
  exists suf. reflexivity.
Qed.
