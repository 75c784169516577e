(** Proofs: table statements (insert, replace), the existence check, the compaction by a mask. *)
From Verif Require Import Base BaseLemmas UtilModel DbModel.

(** ** Insertion as seen by key *)
Section Insert.
  Context {R K : Type}.
  Variable key : R -> K.
  Variable eqk : K -> K -> bool.
  Hypothesis eqk_ok : forall a b, eqk a b = true <-> a = b.
  Variable same_key : R -> R -> bool.
  Hypothesis same_ok : forall a b, same_key a b = eqk (key a) (key b).

  Definition look (k : K) (t : list R) : option R := find (fun r => eqk (key r) k) t.

  Lemma eqk_refl k : eqk k k = true. Proof. apply eqk_ok. reflexivity. Qed.
  Lemma eqk_sym a b : eqk a b = eqk b a.
  Proof.
    destruct (eqk a b) eqn:E; symmetry.
    - apply eqk_ok in E. subst. apply eqk_refl.
    - destruct (eqk b a) eqn:E2; [apply eqk_ok in E2; subst; rewrite eqk_refl in E; discriminate | reflexivity].
  Qed.
  Lemma look_in k t r : look k t = Some r -> In r t /\ key r = k.
  Proof. unfold look. intros E. apply find_some in E. rewrite eqk_ok in E. exact E. Qed.
  Lemma look_none k t : look k t = None <-> ~ In k (map key t).
  Proof.
    unfold look. induction t as [|x t IH]; [cbn; tauto|]. cbn [find map In].
    destruct (eqk (key x) k) eqn:E; [apply eqk_ok in E; split; [discriminate | tauto]|].
    rewrite IH. assert (key x <> k) by (intros Ek; apply eqk_ok in Ek; congruence). tauto.
  Qed.
  Lemma in_look r t : NoDup (map key t) -> In r t -> look (key r) t = Some r.
  Proof.
    unfold look. induction t as [|x t IH]; intros Hn [].
    - subst. cbn [find]. rewrite eqk_refl. reflexivity.
    - inversion Hn; subst. cbn [find]. destruct (eqk (key x) (key r)) eqn:E; [|apply IH; assumption].
      apply eqk_ok in E. exfalso. apply H2. rewrite E. apply in_map. assumption.
  Qed.
  Lemma look_app k a b : look k (a ++ b) = match look k a with Some r => Some r | None => look k b end.
  Proof. unfold look. induction a as [|x a IH]; [reflexivity|]. cbn. destruct (eqk (key x) k); [reflexivity | apply IH]. Qed.
  Lemma existsb_look r t : existsb (same_key r) t = match look (key r) t with Some _ => true | None => false end.
  Proof.
    unfold look. induction t as [|x t IH]; [reflexivity|]. cbn. rewrite same_ok, eqk_sym. destruct (eqk (key x) (key r)); [reflexivity | apply IH].
  Qed.

  Lemma ignore_look k rows : forall t,
    look k (insert_ignore same_key t rows) = match look k t with Some r => Some r | None => look k rows end.
  Proof.
    induction rows as [|r rows IH]; intros t; cbn [insert_ignore]; [cbn; destruct (look k t); reflexivity|].
    rewrite IH, existsb_look. cbn. destruct (look (key r) t) as [r'|] eqn:E.
    - destruct (look k t) eqn:Et; [reflexivity|]. destruct (eqk (key r) k) eqn:Ek; [|reflexivity].
      apply eqk_ok in Ek. congruence.
    - rewrite look_app. cbn. destruct (look k t) eqn:Et; [reflexivity|]. destruct (eqk (key r) k); reflexivity.
  Qed.
  Lemma ignore_nodup rows : forall t, NoDup (map key t) -> NoDup (map key (insert_ignore same_key t rows)).
  Proof.
    induction rows as [|r rows IH]; intros t Hn; cbn [insert_ignore]; [exact Hn|]. apply IH. rewrite existsb_look.
    destruct (look (key r) t) eqn:E; [exact Hn|]. apply look_none in E.
    rewrite map_app. apply NoDup_rev in Hn. rewrite <- (rev_involutive (map key t ++ map key [r])), rev_app_distr. apply NoDup_rev. cbn.
    constructor; [|exact Hn]. rewrite <- in_rev. exact E.
  Qed.
  Lemma ignore_keeps rows : forall t x, In x t -> In x (insert_ignore same_key t rows).
  Proof.
    induction rows as [|r rows IH]; intros t x Hx; cbn [insert_ignore]; [exact Hx|]. apply IH.
    destruct (existsb (same_key r) t); [exact Hx|]. apply in_or_app. left. exact Hx.
  Qed.
  Lemma ignore_from rows : forall t x, In x (insert_ignore same_key t rows) -> In x t \/ In x rows /\ ~ In (key x) (map key t).
  Proof.
    induction rows as [|r rows IH]; intros t x Hx; cbn [insert_ignore] in Hx; [tauto|]. apply IH in Hx. rewrite existsb_look in Hx.
    destruct (look (key r) t) eqn:E.
    - destruct Hx as [|[? ?]]; [tauto|]. right. split; [right; assumption | assumption].
    - apply look_none in E. destruct Hx as [Hx|[Hx Hk]].
      + apply in_app_or in Hx. destruct Hx as [|[->|[]]]; [tauto|]. right. split; [left; reflexivity | exact E].
      + right. split; [right; exact Hx|]. intros Hk2. apply Hk. rewrite map_app. apply in_or_app. tauto.
  Qed.
  Lemma ignore_keys rows t k : In k (map key (insert_ignore same_key t rows)) <-> In k (map key t) \/ In k (map key rows).
  Proof.
    destruct (look k (insert_ignore same_key t rows)) eqn:E.
    - assert (Hi : In k (map key (insert_ignore same_key t rows))) by (apply look_in in E; destruct E as [Hi <-]; apply in_map; exact Hi).
      rewrite ignore_look in E. split; [|tauto]. intros _.
      destruct (look k t) eqn:Et; [left; apply look_in in Et | right; apply look_in in E].
      + destruct Et as [? <-]. apply in_map. assumption.
      + destruct E as [? <-]. apply in_map. assumption.
    - pose proof (proj1 (look_none _ _) E) as Hni. split; [tauto|]. intros Hk. exfalso. rewrite ignore_look in E.
      destruct (look k t) eqn:Et; [discriminate|]. apply look_none in Et, E. tauto.
  Qed.

  Lemma look_filter k f (t : list R) : (forall r, key r = k -> f r = true) -> look k (filter f t) = look k t.
  Proof.
    intros Hf. unfold look. induction t as [|x t IH]; [reflexivity|]. cbn [filter find].
    destruct (eqk (key x) k) eqn:E.
    - apply eqk_ok in E. rewrite (Hf _ E). cbn [find]. rewrite (proj2 (eqk_ok _ _) E). reflexivity.
    - destruct (f x); cbn [find]; rewrite ?E; exact IH.
  Qed.
  Lemma look_filter_out k f (t : list R) : (forall r, key r = k -> f r = false) -> look k (filter f t) = None.
  Proof.
    intros Hf. apply look_none. rewrite in_map_iff. intros (r & Hk & Hr). apply filter_In in Hr. rewrite (Hf _ Hk) in Hr. destruct Hr. discriminate.
  Qed.
  Lemma look_filter_some k f (t : list R) : NoDup (map key t) ->
    look k (filter f t) = match look k t with Some r => if f r then Some r else None | None => None end.
  Proof.
    unfold look. induction t as [|x t IH]; intros Hn; [reflexivity|]. cbn [filter find]. inversion Hn as [|? ? Hx Hn']; subst.
    destruct (eqk (key x) k) eqn:E.
    - destruct (f x); cbn [find]; [rewrite E; reflexivity|]. rewrite IH by assumption.
      apply eqk_ok in E. subst. apply look_none in Hx. unfold look in Hx. rewrite Hx. reflexivity.
    - destruct (f x); cbn [find]; rewrite ?E; apply IH; assumption.
  Qed.
  Lemma nodup_filter f (t : list R) : NoDup (map key t) -> NoDup (map key (filter f t)).
  Proof.
    induction t as [|x t IH]; intros Hn; [constructor|]. inversion Hn as [|? ? Hx Hn']; subst. cbn [filter]. destruct (f x); [|apply IH; assumption].
    cbn. constructor; [|apply IH; assumption]. intros Hi. apply Hx. apply in_map_iff in Hi. destruct Hi as (y & <- & Hy).
    apply filter_In in Hy. apply in_map. tauto.
  Qed.
  Lemma replace_look k rows : forall t,
    look k (insert_replace same_key t rows) = match look k (rev rows) with Some r => Some r | None => look k t end.
  Proof.
    induction rows as [|r rows IH]; intros t; cbn [insert_replace rev]; [reflexivity|].
    rewrite IH, !look_app. destruct (look k (rev rows)); [reflexivity|].
    change (look k [r]) with (if eqk (key r) k then Some r else None). destruct (eqk (key r) k) eqn:E.
    - rewrite look_filter_out; [reflexivity|]. intros x Hx. apply eqk_ok in E. rewrite same_ok, E, Hx, eqk_refl. reflexivity.
    - rewrite look_filter; [destruct (look k t); reflexivity|]. intros x Hx. rewrite same_ok, Hx, E. reflexivity.
  Qed.
  Lemma replace_nodup rows : forall t, NoDup (map key t) -> NoDup (map key (insert_replace same_key t rows)).
  Proof.
    induction rows as [|r rows IH]; intros t Hn; cbn [insert_replace]; [exact Hn|]. apply IH.
    rewrite map_app. pose proof (nodup_filter (fun x => negb (same_key r x)) t Hn) as Hf.
    apply NoDup_rev in Hf. rewrite <- (rev_involutive (_ ++ _)), rev_app_distr. apply NoDup_rev. cbn. constructor; [|exact Hf].
    rewrite <- in_rev, in_map_iff. intros (x & Hk & Hx). apply filter_In in Hx. destruct Hx as [_ Hx]. rewrite same_ok, Hk, eqk_refl in Hx. discriminate.
  Qed.
  Lemma replace_from rows : forall t x, In x (insert_replace same_key t rows) -> In x t /\ ~ In (key x) (map key rows) \/ In x rows.
  Proof.
    induction rows as [|r rows IH]; intros t x Hx; cbn [insert_replace] in Hx; [cbn; tauto|]. apply IH in Hx.
    destruct Hx as [[Hx Hk]|Hx]; [|right; right; exact Hx]. apply in_app_or in Hx. destruct Hx as [Hx|[->|[]]]; [|right; left; reflexivity].
    apply filter_In in Hx. destruct Hx as [Hx Hs]. left. split; [exact Hx|]. cbn. intros [E|]; [|tauto].
    rewrite same_ok, E, eqk_refl in Hs. discriminate.
  Qed.
  Lemma replace_has rows t k : In k (map key rows) -> exists r, In r rows /\ key r = k /\ In r (insert_replace same_key t rows).
  Proof.
    intros Hk. assert (Hr : In k (map key (rev rows))) by (rewrite map_rev, <- in_rev; exact Hk).
    pose proof (replace_look k rows t) as E. destruct (look k (rev rows)) as [r|] eqn:El; [|apply look_none in El; tauto].
    apply look_in in El. apply look_in in E. exists r. rewrite in_rev. tauto.
  Qed.
  Lemma replace_keeps rows : forall t x, In x t -> ~ In (key x) (map key rows) -> In x (insert_replace same_key t rows).
  Proof.
    induction rows as [|r rows IH]; intros t x Hx Hk; cbn [insert_replace]; [exact Hx|]. cbn in Hk. apply IH; [|tauto].
    apply in_or_app. left. apply filter_In. split; [exact Hx|]. rewrite same_ok. destruct (eqk (key r) (key x)) eqn:E; [|reflexivity].
    apply eqk_ok in E. tauto.
  Qed.
End Insert.

(** The keys in use *)
Lemma cert_key_ok a b : cert_key a b = beqb (cr_id a) (cr_id b). Proof. reflexivity. Qed.
Lemma fst_key_ok {B} (a b : bytes * B) : fst_key a b = beqb (fst a) (fst b). Proof. reflexivity. Qed.
Definition pair_eqb (a b : bytes * bytes) : bool := beqb (fst a) (fst b) && beqb (snd a) (snd b).
Lemma pair_eqb_ok a b : pair_eqb a b = true <-> a = b.
Proof.
  unfold pair_eqb. destruct a as [a1 a2], b as [b1 b2]. cbn. rewrite andb_true_iff, !beqb_eq. split; [intros [-> ->]; reflexivity | intros E; inversion E; auto].
Qed.
Lemma pair_key_ok a b : pair_key a b = pair_eqb ((fun x => x) a) ((fun x => x) b). Proof. reflexivity. Qed.
Lemma pair_ignore_in t rows x : In x (insert_ignore pair_key t rows) <-> In x t \/ In x rows.
Proof.
  pose proof (ignore_keys (fun x => x) pair_eqb pair_eqb_ok pair_key pair_key_ok rows t x) as E. rewrite !map_id in E. exact E.
Qed.

(** ** CheckCertsExist *)
Lemma in_table_iff t id : in_table t id = true <-> In id (map cr_id t).
Proof.
  unfold in_table. rewrite existsb_exists, in_map_iff. split.
  - intros (r & Hr & E). apply beqb_eq in E. eauto.
  - intros (r & E & Hr). exists r. split; [exact Hr|]. apply beqb_eq. exact E.
Qed.
Lemma firstn_add {A} (l : list A) i j : firstn (i + j) l = firstn i l ++ firstn j (skipn i l).
Proof.
  revert l. induction i as [|i IH]; intros l; [reflexivity|]. destruct l as [|x l]; [cbn; rewrite firstn_nil; reflexivity|]. cbn. rewrite IH. reflexivity.
Qed.
Lemma skipn_repeat {A} (x : A) n k : skipn k (repeat x n) = repeat x (n - k).
Proof. revert k. induction n as [|n IH]; intros [|k]; cbn; try reflexivity. apply IH. Qed.

Section Check.
  Variable t : list cert_row.
  Variable b : nat.
  Hypothesis b_pos : 0 < b.

  Definition answered (ids : list bytes) (i : nat) : list bool := map (in_table t) (firstn i ids) ++ repeat false (length ids - i).
  Lemma put_answered ids i j : i + j <= length ids ->
    put (answered ids i) i (check_block t (sub_list ids i (i + j))) = answered ids (i + j).
  Proof.
    intros Hl. unfold put, answered, check_block, sub_list. replace (i + j - i) with j by lia.
    rewrite firstn_app_exact by (rewrite map_length, firstn_length; lia).
    rewrite map_length, firstn_length, skipn_length. replace (i + Nat.min j (length ids - i)) with (i + j) by lia.
    rewrite skipn_app, map_length, firstn_length, (skipn_all2 (map (in_table t) (firstn i ids))) by (rewrite map_length, firstn_length; lia).
    rewrite skipn_repeat, firstn_add, map_app, <- app_assoc. cbn. f_equal. f_equal. f_equal. lia.
  Qed.
  Lemma blocks_end fuel ids : forall i, length ids <= i + fuel -> i <= length ids ->
    exists m, blocks fuel t b i ids (answered ids i) = answered ids (i + b * m) /\ length ids <= i + b * m + b /\ (m = 0 \/ i + b * m < length ids).
  Proof.
    induction fuel as [|f IH]; intros i Hf Hi; cbn [blocks].
    - exists 0. rewrite Nat.mul_0_r, Nat.add_0_r. split; [reflexivity | lia].
    - destruct (i + b <? length ids) eqn:E; [apply Nat.ltb_lt in E | apply Nat.ltb_ge in E].
      + rewrite put_answered by lia. destruct (IH (i + b)) as (m & Em & H1 & H2); [lia | lia |].
        exists (S m). rewrite Em. split; [f_equal; lia|]. split; [lia|]. right. destruct H2; [subst|]; lia.
      + exists 0. rewrite Nat.mul_0_r, Nat.add_0_r. split; [reflexivity | lia].
  Qed.
  Lemma answered_0 ids : answered ids 0 = repeat false (length ids).
  Proof. unfold answered. cbn. rewrite Nat.sub_0_r. reflexivity. Qed.
  Lemma check_cases ids :
    (length ids mod b <> 0 \/ ids = [] -> check_certs_exist t b ids = map (in_table t) ids) /\
    (forall k, length ids = b * S k -> check_certs_exist t b ids = answered ids (b * k)).
  Proof.
    unfold check_certs_exist. rewrite <- answered_0. destruct (blocks_end (length ids) ids 0) as (m & Em & H1 & H2); [lia | lia |].
    rewrite Em. cbn [Nat.add] in *. pose proof (Nat.div_mod (length ids) b) as Hd. pose proof (Nat.mod_upper_bound (length ids) b) as Hu.
    set (q := length ids / b) in *. set (r := length ids mod b) in *. replace (q * b) with (b * q) by lia.
    split.
    - intros [Hr| ->].
      + replace (b * q <? b * q + r) with true by (symmetry; apply Nat.ltb_lt; lia).
        assert (m = q) by nia. subst m. rewrite put_answered by lia. unfold answered. rewrite firstn_all2 by lia.
        replace (length ids - (b * q + r)) with 0 by lia. cbn. apply app_nil_r.
      + cbn in *. assert (q = 0) by (unfold q; apply Nat.div_0_l; lia). assert (r = 0) by (unfold r; apply Nat.mod_0_l; lia).
        rewrite H, H0, Nat.mul_0_r. cbn. destruct (b * m); reflexivity.
    - intros k Hk. assert (r = 0) by (unfold r; rewrite Hk, Nat.mul_comm; apply Nat.mod_mul; lia).
      rewrite H, Nat.add_0_r, Nat.ltb_irrefl. f_equal. f_equal. rewrite Hk in H1, H2.
      assert (k <= m) by (apply (Nat.mul_le_mono_pos_l _ _ b b_pos); lia).
      destruct H2 as [->|H2]; [lia|]. apply (Nat.mul_lt_mono_pos_l b _ _ b_pos) in H2. lia.
  Qed.
  Lemma check_any ids : exists e, e <= length ids /\ check_certs_exist t b ids = answered ids e.
  Proof.
    destruct (Nat.eq_dec (length ids mod b) 0) as [E|E].
    - destruct ids as [|x ids']; [exists 0; split; [lia|]; rewrite (proj1 (check_cases []) (or_intror eq_refl)); reflexivity|].
      set (ids := x :: ids') in *. assert (Hd : length ids = b * (length ids / b)) by (pose proof (Nat.div_mod (length ids) b); lia).
      destruct (length ids / b) as [|k] eqn:Eq; [rewrite Nat.mul_0_r in Hd; discriminate|].
      exists (b * k). split; [lia|]. apply check_cases. exact Hd.
    - exists (length ids). split; [lia|]. rewrite (proj1 (check_cases ids) (or_introl E)). unfold answered. rewrite firstn_all, Nat.sub_diag, app_nil_r. reflexivity.
  Qed.
End Check.
Lemma nth_answered t ids e i x : nth_error ids i = Some x -> nth_error (answered t ids e) i = Some (if i <? e then in_table t x else false).
Proof.
  intros E. assert (Hi : i < length ids) by (apply nth_error_Some; congruence). unfold answered. destruct (i <? e) eqn:El.
  - apply Nat.ltb_lt in El. rewrite nth_error_app1 by (rewrite map_length, firstn_length; lia).
    rewrite nth_error_map. replace (nth_error (firstn e ids) i) with (nth_error ids i); [rewrite E; reflexivity|].
    clear -El. revert e El ids. induction i as [|i IH]; intros [|e] El [|y ids]; try lia; try reflexivity. cbn. apply IH. lia.
  - apply Nat.ltb_ge in El. rewrite nth_error_app2 by (rewrite map_length, firstn_length; lia).
    rewrite map_length, firstn_length. replace (i - Nat.min e (length ids)) with (i - e) by lia.
    assert (Hb : i - e < length ids - e) by lia. revert Hb. generalize (length ids - e), (i - e). clear.
    induction n as [|n IH]; intros [|k] Hk; try lia; [reflexivity|]. cbn. apply IH. lia.
Qed.
Lemma answered_length t ids e : e <= length ids -> length (answered t ids e) = length ids.
Proof. intros. unfold answered. rewrite app_length, map_length, firstn_length, repeat_length. lia. Qed.

Theorem check_exact t b ids : 0 < b -> length ids mod b <> 0 \/ ids = [] ->
  length (check_certs_exist t b ids) = length ids /\
  forall i x, nth_error ids i = Some x -> exists v, nth_error (check_certs_exist t b ids) i = Some v /\ (v = true <-> In x (map cr_id t)).
Proof.
  intros Hb Hm. rewrite (proj1 (check_cases t b Hb ids) Hm). split; [apply map_length|]. intros i x E.
  exists (in_table t x). rewrite nth_error_map, E. split; [reflexivity | apply in_table_iff].
Qed.
Theorem check_length t b ids : 0 < b -> length (check_certs_exist t b ids) = length ids.
Proof. intros Hb. destruct (check_any t b Hb ids) as (e & He & ->). apply answered_length. exact He. Qed.
Theorem check_sound t b ids i x : 0 < b -> nth_error ids i = Some x -> nth_error (check_certs_exist t b ids) i = Some true -> In x (map cr_id t).
Proof.
  intros Hb E Ht. destruct (check_any t b Hb ids) as (e & He & Ec). rewrite Ec, (nth_answered _ _ _ _ _ E) in Ht.
  destruct (i <? e); [|discriminate]. injection Ht. apply in_table_iff.
Qed.
Theorem check_misses t b ids k i : 0 < b -> length ids = b * S k -> b * k <= i < length ids -> nth_error (check_certs_exist t b ids) i = Some false.
Proof.
  intros Hb Hl Hi. rewrite (proj2 (check_cases t b Hb ids) k Hl). destruct (nth_error ids i) as [x|] eqn:E; [|apply nth_error_None in E; lia].
  rewrite (nth_answered _ _ _ _ _ E). replace (i <? b * k) with false; [reflexivity|]. symmetry. apply Nat.ltb_ge. lia.
Qed.

(** ** runWhenFalse *)
(** What should be kept: the elements whose mask is false. *)
Definition kept {A} (mask : list bool) (l : list A) : list A := map snd (filter (fun p => negb (fst p)) (combine mask l)).
Lemma kept_cons {A} m mask (x : A) l : kept (m :: mask) (x :: l) = if m then kept mask l else x :: kept mask l.
Proof. unfold kept. cbn. destruct m; reflexivity. Qed.
Fixpoint falses (mask : list bool) (from : nat) : list nat :=
  match mask with [] => [] | true :: m => falses m (S from) | false :: m => from :: falses m (S from) end.
Lemma falses_in mask : forall from i, In i (falses mask from) <-> from <= i /\ nth_error mask (i - from) = Some false.
Proof.
  induction mask as [|v mask IH]; intros from i; cbn [falses].
  - cbn. split; [tauto|]. intros [_ E]. destruct (i - from); discriminate.
  - assert (Hc : from <= i /\ nth_error (v :: mask) (i - from) = Some false <-> (i = from /\ v = false) \/ (S from <= i /\ nth_error mask (i - S from) = Some false)).
    { split.
      - intros [Hl E]. destruct (Nat.eq_dec i from) as [->|Hne].
        + rewrite Nat.sub_diag in E. cbn in E. left. split; congruence.
        + right. split; [lia|]. replace (i - from) with (S (i - S from)) in E by lia. exact E.
      - intros [[-> ->]|[Hl E]]; [rewrite Nat.sub_diag; split; [lia | reflexivity]|]. split; [lia|].
        replace (i - from) with (S (i - S from)) by lia. exact E. }
    destruct v; [rewrite IH, Hc; intuition congruence|]. cbn [In]. rewrite IH, Hc. intuition congruence.
Qed.
Lemma falses_sorted mask : forall from, Sorted.StronglySorted lt (falses mask from).
Proof.
  induction mask as [|v mask IH]; intros from; cbn [falses]; [constructor|]. destruct v; [apply IH|]. constructor; [apply IH|].
  apply Forall_forall. intros i Hi. apply falses_in in Hi. lia.
Qed.
(** The function is called once for each index with a false mask, in order, the k-th time with to = k. *)
Theorem rwf_calls {St} mask (f : nat -> nat -> St -> St) : forall from to s,
  run_when_false_from mask from to f s =
  (fold_left (fun s p => f (fst p) (snd p) s) (combine (seq to (length (falses mask from))) (falses mask from)) s, to + length (falses mask from)).
Proof.
  induction mask as [|v mask IH]; intros from to s; cbn [run_when_false_from falses]; [cbn; rewrite Nat.add_0_r; reflexivity|].
  destruct v; [apply IH|]. rewrite IH. cbn [length seq combine fold_left fst snd]. f_equal. lia.
Qed.

Lemma firstn_set_nth {A} n (x : A) l : n < length l -> firstn (S n) (set_nth n x l) = firstn n l ++ [x].
Proof. revert l. induction n as [|n IH]; intros [|y l] Hl; cbn in Hl; try lia; [reflexivity|]. cbn. f_equal. apply IH. lia. Qed.
Lemma skipn_set_nth {A} n k (x : A) l : n < k -> skipn k (set_nth n x l) = skipn k l.
Proof. revert k l. induction n as [|n IH]; intros [|k] [|y l] Hl; try lia; try reflexivity. cbn. apply IH. lia. Qed.
Lemma skipn_cons_nth {A} n (l : list A) d : n < length l -> skipn n l = nth n l d :: skipn (S n) l.
Proof. revert l. induction n as [|n IH]; intros [|y l] Hl; cbn in Hl; try lia; [reflexivity|]. cbn. apply IH. lia. Qed.
Lemma rwf_move_from {A} (d : A) mask : forall from to (l : list A), to <= from -> length l = from + length mask ->
  let r := run_when_false_from mask from to (move d) l in
  firstn (snd r) (fst r) = firstn to l ++ kept mask (skipn from l) /\ length (fst r) = length l /\ snd r = to + length (kept mask (skipn from l)).
Proof.
  induction mask as [|v mask IH]; intros from to l Ht Hl; cbn [run_when_false_from fst snd].
  - cbn. rewrite app_nil_r, Nat.add_0_r. auto.
  - cbn in Hl. assert (Hlt : from < length l) by lia. pose proof (skipn_cons_nth from l d Hlt) as Es. rewrite Es, kept_cons.
    destruct v.
    + apply IH; lia.
    + set (l' := move d to from l). assert (Hl' : length l' = length l) by apply set_nth_length.
      destruct (IH (S from) (S to) l') as (E1 & E2 & E3); [lia | lia |]. rewrite E1, E2, E3. unfold l', move.
      rewrite firstn_set_nth, !skipn_set_nth by lia. rewrite <- app_assoc. cbn [length app]. split; [reflexivity|]. split; [apply Hl' | lia].
Qed.
Theorem rwf_move {A} (d : A) mask l : length l = length mask ->
  let r := run_when_false mask (move d) l in
  firstn (snd r) (fst r) = kept mask l /\ snd r = length (kept mask l) /\ length (fst r) = length l.
Proof. intros Hl. destruct (rwf_move_from d mask 0 0 l) as (E1 & E2 & E3); [lia | exact Hl|]. cbn [skipn firstn app Nat.add] in *. auto. Qed.
Lemma kept_combine {A B} mask : forall (a : list A) (b : list B), length a = length mask -> length b = length mask ->
  kept mask (combine a b) = combine (kept mask a) (kept mask b).
Proof.
  induction mask as [|v mask IH]; intros [|x a] [|y b] Ha Hb; cbn in Ha, Hb; try discriminate; [reflexivity|]. cbn [combine].
  rewrite !kept_cons. destruct v; [|cbn [combine]; f_equal]; apply IH; lia.
Qed.
Lemma kept_length {A B} mask : forall (a : list A) (b : list B), length a = length mask -> length b = length mask -> length (kept mask a) = length (kept mask b).
Proof.
  induction mask as [|v mask IH]; intros [|x a] [|y b] Ha Hb; cbn in Ha, Hb; try discriminate; [reflexivity|].
  rewrite !kept_cons. destruct v; [|cbn; f_equal]; apply IH; lia.
Qed.
Lemma kept_in {A} mask : forall (l : list A) x, In x (kept mask l) <-> exists i, nth_error mask i = Some false /\ nth_error l i = Some x.
Proof.
  induction mask as [|v mask IH]; intros l x.
  - cbn. split; [tauto|]. intros ([|i] & E & _); discriminate.
  - destruct l as [|y l].
    + cbn. split; [tauto|]. intros ([|i] & _ & E); discriminate.
    + rewrite kept_cons. split.
      * destruct v; [|intros [->|Hx]; [exists 0; split; reflexivity|]; revert Hx]; (intros Hx; apply IH in Hx; destruct Hx as (i & E1 & E2); exists (S i); split; assumption).
      * intros ([|i] & E1 & E2); cbn in E1, E2.
        -- injection E1 as ->. injection E2 as ->. left. reflexivity.
        -- assert (Hx : In x (kept mask l)) by (apply IH; eauto). destruct v; [exact Hx | right; exact Hx].
Qed.
Lemma falses_length {A} mask : forall from (l : list A), length l = length mask -> length (falses mask from) = length (kept mask l).
Proof.
  induction mask as [|v mask IH]; intros from [|x l] Hl; cbn in Hl; try discriminate; [reflexivity|]. rewrite kept_cons. cbn [falses].
  destruct v; [|cbn; f_equal]; apply IH; lia.
Qed.
Lemma nth_combine {A B} k : forall (la : list A) (lb : list B) x y,
  nth_error (combine la lb) k = Some (x, y) <-> nth_error la k = Some x /\ nth_error lb k = Some y.
Proof.
  induction k as [|k IH]; intros [|a la] [|b lb] x y; cbn; try (split; [discriminate | intros [? ?]; discriminate]).
  - split; [intros E; injection E as -> ->; auto | intros [E1 E2]; congruence].
  - apply IH.
Qed.
Lemma kept_nodup {A} mask : forall l : list A, NoDup l -> NoDup (kept mask l).
Proof.
  induction mask as [|v m IH]; intros [|x l] Hn; try constructor. rewrite kept_cons. inversion Hn as [|? ? Hx Hn']; subst.
  destruct v; [apply IH; exact Hn'|]. constructor; [|apply IH; exact Hn']. intros Hk. apply kept_in in Hk. destruct Hk as (j & _ & Hj). apply nth_error_In in Hj. tauto.
Qed.
Lemma nth_firstn_lt {A} i : forall (m : list A) j, j < i -> nth_error (firstn i m) j = nth_error m j.
Proof. induction i as [|i IH]; intros m j Hl; [lia|]. destruct m, j; try reflexivity. cbn. apply IH. lia. Qed.
Lemma kept_all_false {A} mask : forall l : list A, (forall v, In v mask -> v = false) -> length l = length mask -> kept mask l = l.
Proof.
  induction mask as [|v m IH]; intros [|x l] Hf Hl; try discriminate; [reflexivity|]. rewrite kept_cons, (Hf v) by (left; reflexivity).
  f_equal. apply IH; [intros; apply Hf; right; assumption | cbn in Hl; lia].
Qed.
