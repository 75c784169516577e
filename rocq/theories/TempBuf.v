(** Facts about the buffers of TempModel: preparing, drawing names, the calls of Write. *)
From Verif Require Import Base SysModel LoadModel TempModel.

Lemma copy_into_app a rest src : length src = length a -> copy_into (a ++ rest) src = src ++ rest.
Proof.
  revert src. induction a as [|x a IH]; intros [|y src] E; try discriminate E.
  - cbn. destruct rest; reflexivity.
  - cbn. f_equal. apply IH. now injection E.
Qed.
Lemma copy_at_app a m rest src : length src = length m -> copy_at (length a) (a ++ m ++ rest) src = a ++ src ++ rest.
Proof.
  intros E. unfold copy_at. rewrite firstn_app, Nat.sub_diag, firstn_all, skipn_app, Nat.sub_diag, skipn_all. cbn.
  rewrite app_nil_r. f_equal. apply copy_into_app. exact E.
Qed.
Lemma set_nth_app {A} (a : list A) x y rest : set_nth (length a) x (a ++ y :: rest) = a ++ x :: rest.
Proof. induction a as [|z a IH]; cbn; [reflexivity | f_equal; exact IH]. Qed.
Lemma cstring_app p rest : ~ In x00 p -> cstring (p ++ x00 :: rest) = p.
Proof.
  intros H. induction p as [|c p IH]; cbn; [reflexivity|]. destruct (Byte.eqb c x00) eqn:E.
  - exfalso. apply H. left. now apply byte_dec_bl.
  - f_equal. apply IH. intros Hin. apply H. right. exact Hin.
Qed.
Lemma split_at {A} k (l : list A) : k <= length l -> exists a b, l = a ++ b /\ length a = k.
Proof. intros H. exists (firstn k l), (skipn k l). split; [symmetry; apply firstn_skipn | apply firstn_length_le; exact H]. Qed.

(** A buffer that holds the name [p]. *)
Definition holds_name (cap : nat) (x p : bytes) : Prop := length x = cap /\ ~ In x00 p /\ p <> [] /\ exists tail, x = p ++ x00 :: tail.
(** A buffer between the preparation and a draw. *)
Definition holds_form (cap : nat) (x prefix suffix : bytes) : Prop :=
  length x = cap /\ exists mid tail, length mid = random_count /\ x = prefix ++ mid ++ suffix ++ x00 :: tail.

Lemma prepare_spec cap storage prefix suffix : length storage = cap -> prefix <> [] -> length prefix + random_count + length suffix < cap ->
  exists x, prepare storage prefix suffix = Ok x /\ holds_form cap x prefix suffix.
Proof.
  intros Hl Hp Hc.
  destruct (split_at (length prefix) storage) as (a & r1 & E1 & La); [lia|].
  destruct (split_at random_count r1) as (m & r2 & E2 & Lm); [subst storage; rewrite app_length in *; lia|].
  destruct (split_at (length suffix) r2) as (c & r3 & E3 & Lc); [subst; rewrite !app_length in *; lia|].
  destruct r3 as [|d e]; [subst; rewrite !app_length in *; cbn in *; lia|].
  assert (Hm : exists m0 m', m = m0 :: m') by (destruct m; [discriminate Lm | eauto]). destruct Hm as (m0 & m' & Em).
  exists (prefix ++ (x00 :: m') ++ suffix ++ x00 :: e).
  assert (L0 : length storage = length prefix + random_count + length suffix + S (length e)).
  { rewrite E1, E2, E3, !app_length. cbn [length]. lia. }
  split.
  - unfold prepare. replace (length storage <? length prefix + random_count) with false by (symmetry; apply Nat.ltb_ge; lia).
    assert (S1 : copy_at (length prefix + random_count) (copy_into storage prefix) suffix = prefix ++ m ++ suffix ++ d :: e).
    { rewrite E1, copy_into_app by lia. rewrite E2, E3. rewrite !app_assoc, <- (app_assoc (prefix ++ m)).
      replace (length prefix + random_count) with (length (prefix ++ m)) by (rewrite app_length; lia).
      rewrite copy_at_app by lia. rewrite !app_assoc. reflexivity. }
    rewrite S1. unfold string_to_byte_ptr.
    destruct prefix as [|p0 prefix]; [contradiction|]. cbn [app].
    assert (L1 : length (p0 :: prefix ++ m ++ suffix ++ d :: e) = length storage).
    { rewrite L0. cbn [length]. rewrite !app_length. cbn [length]. lia. }
    rewrite L1. replace (length (p0 :: prefix) <? length storage) with true by (symmetry; apply Nat.ltb_lt; lia).
    assert (S2 : copy_into (set_nth (length (p0 :: prefix)) x00 (p0 :: prefix ++ m ++ suffix ++ d :: e)) (p0 :: prefix) =
                 (p0 :: prefix) ++ (x00 :: m') ++ suffix ++ d :: e).
    { rewrite Em. change (p0 :: prefix ++ (m0 :: m') ++ suffix ++ d :: e) with ((p0 :: prefix) ++ m0 :: (m' ++ suffix ++ d :: e)).
      rewrite set_nth_app. apply copy_into_app. reflexivity. }
    rewrite S2.
    assert (L2 : length ((p0 :: prefix) ++ (x00 :: m') ++ suffix ++ d :: e) = length storage).
    { rewrite L0, !app_length. subst m. cbn [length] in *. lia. }
    rewrite L2. replace (length (p0 :: prefix) + random_count + length suffix <? length storage) with true by (symmetry; apply Nat.ltb_lt; lia).
    f_equal. rewrite !app_assoc.
    replace (length (p0 :: prefix) + random_count + length suffix) with (length (((p0 :: prefix) ++ x00 :: m') ++ suffix)).
    2:{ rewrite !app_length. subst m. cbn [length] in *. lia. }
    rewrite set_nth_app. cbn [app]. rewrite <- !app_assoc. reflexivity.
  - split.
    + rewrite <- Hl, L0, !app_length. subst m. cbn [length] in *. lia.
    + exists (x00 :: m'), e. split; [subst m; exact Lm | reflexivity].
Qed.

Lemma random_part_length draw : length (random_part draw) = random_count.
Proof. unfold random_part. now rewrite map_length, seq_length. Qed.
Lemma char_map_nonzero c : In c char_map -> c <> x00.
Proof. unfold char_map. cbn. intros H E. subst c. repeat (destruct H as [H|H]; [discriminate H|]). exact H. Qed.
Lemma random_part_chars draw c : In c (random_part draw) -> In c char_map.
Proof.
  unfold random_part. rewrite in_map_iff. intros (i & E & _). subst c. apply nth_In. apply Nat.mod_upper_bound. discriminate.
Qed.

Lemma randomize_spec cap x prefix suffix draw : ~ In x00 prefix -> prefix <> [] -> ~ In x00 suffix -> holds_form cap x prefix suffix ->
  holds_name cap (randomize x prefix draw) (prefix ++ random_part draw ++ suffix) /\ holds_form cap (randomize x prefix draw) prefix suffix /\
  cstring (randomize x prefix draw) = prefix ++ random_part draw ++ suffix.
Proof.
  intros Hp Hn Hs (Hl & mid & tail & Lm & Ex).
  assert (E : randomize x prefix draw = prefix ++ random_part draw ++ suffix ++ x00 :: tail).
  { unfold randomize. rewrite Ex. apply copy_at_app. rewrite random_part_length. lia. }
  assert (L : length (randomize x prefix draw) = cap).
  { rewrite E, <- Hl, Ex, !app_length, random_part_length. lia. }
  assert (Hz : ~ In x00 (prefix ++ random_part draw ++ suffix)).
  { rewrite !in_app_iff. intros [H|[H|H]]; auto. apply random_part_chars in H. exact (char_map_nonzero _ H eq_refl). }
  split; [|split].
  - split; [exact L|]. split; [exact Hz|]. split; [destruct prefix; [contradiction | discriminate]|]. exists tail. rewrite E, <- !app_assoc. reflexivity.
  - split; [exact L|]. exists (random_part draw), tail. split; [apply random_part_length | exact E].
  - rewrite E. replace (prefix ++ random_part draw ++ suffix ++ x00 :: tail) with ((prefix ++ random_part draw ++ suffix) ++ x00 :: tail)
      by (rewrite <- !app_assoc; reflexivity). apply cstring_app. exact Hz.
Qed.

Lemma holds_name_facts cap x p : holds_name cap x p -> firstn (length p) x = p /\ cstring x = p.
Proof.
  intros (Hl & Hz & Hp & tail & E). subst x. split.
  - rewrite firstn_app, Nat.sub_diag, firstn_all. cbn. apply app_nil_r.
  - apply cstring_app. exact Hz.
Qed.
Lemma open_spec cap x p same : holds_name cap x p -> string_to_byte_ptr same x p = Ok x.
Proof.
  intros (Hl & Hz & Hp & tail & E). unfold string_to_byte_ptr. destruct p as [|c p]; [contradiction|].
  destruct x as [|d x]; [discriminate E|]. destruct same; [reflexivity|].
  replace (length (c :: p) <? length (d :: x)) with true by (symmetry; apply Nat.ltb_lt; rewrite E, app_length; cbn; lia).
  f_equal. rewrite E, set_nth_app. apply copy_into_app. reflexivity.
Qed.

Lemma row_chunks_text row : concat (row_chunks row) = raw_line row.
Proof.
  unfold raw_line. destruct row as [|f row]; [reflexivity|]. cbn [row_chunks concat]. revert f.
  induction row as [|g row IH]; intros f; [reflexivity|]. cbn [flat_map app concat]. specialize (IH g).
  change (join_fields (fun f => f) (f :: g :: row)) with (f ++ comma :: join_fields (fun f => f) (g :: row)).
  rewrite <- app_assoc. cbn [app]. rewrite <- IH. reflexivity.
Qed.
Lemma chunks_text rows : concat (chunks rows) = raw_file rows.
Proof.
  induction rows as [|r rows IH]; [reflexivity|]. unfold chunks, raw_file in *. cbn [flat_map map concat].
  rewrite concat_app, row_chunks_text, IH. reflexivity.
Qed.
