(** The fast row parser, the file reader and encoding/csv. *)
From Verif Require Import Base BaseLemmas UtilModel BatchModel CsvModel.

Lemma byte_eqb_refl (x : byte) : Byte.eqb x x = true.
Proof. apply byte_eqb_eq. reflexivity. Qed.

(** ** Splitting, independent of the code *)
Fixpoint split_on (b : byte) (l : bytes) : list bytes :=
  match l with
  | [] => [[]]
  | x :: l' => if Byte.eqb x b then [] :: split_on b l' else match split_on b l' with f :: fs => (x :: f) :: fs | [] => [[x]] end
  end.
Fixpoint join_with (b : byte) (fs : list bytes) : bytes := match fs with [] => [] | [f] => f | f :: fs' => f ++ b :: join_with b fs' end.

Lemma split_ne b l : split_on b l <> [].
Proof. destruct l as [|x l]; cbn; [discriminate|]. destruct (Byte.eqb x b); [discriminate|]. destruct (split_on b l); discriminate. Qed.
Lemma split_join b l : join_with b (split_on b l) = l.
Proof.
  induction l as [|x l IH]; [reflexivity|]. cbn [split_on]. destruct (Byte.eqb x b) eqn:E.
  - apply byte_eqb_eq in E. subst x. cbn [join_with]. destruct (split_on b l) eqn:S; [exfalso; exact (split_ne b l S)|]. cbn [app]. rewrite IH. reflexivity.
  - destruct (split_on b l) as [|f fs]; [cbn in IH; subst l; reflexivity|]. cbn [join_with] in *. destruct fs; cbn [app]; rewrite IH; reflexivity.
Qed.
Lemma split_clean b l f : In f (split_on b l) -> ~ In b f.
Proof.
  revert f. induction l as [|x l IH]; intros f; cbn [split_on].
  - intros [<-|[]] [].
  - destruct (Byte.eqb x b) eqn:E.
    + intros [<-|Hf]; [intros [] | exact (IH f Hf)].
    + destruct (split_on b l) as [|g gs].
      * intros [<-|[]] [->|[]]. rewrite byte_eqb_refl in E. discriminate E.
      * intros [<-|Hf]; [|exact (IH f (or_intror Hf))]. intros [->|X]; [rewrite byte_eqb_refl in E; discriminate E | exact (IH g (or_introl eq_refl) X)].
Qed.

(** ** cut *)
Lemma cut_some b l p q : cut b l = Some (p, q) <-> l = p ++ b :: q /\ ~ In b p.
Proof.
  revert p q. induction l as [|x l IH]; intros p q; cbn [cut].
  - split; [discriminate | intros [X _]; destruct p; discriminate X].
  - destruct (Byte.eqb x b) eqn:E.
    + apply byte_eqb_eq in E. subst x. split.
      * intros X. injection X as <- <-. split; [reflexivity | intros []].
      * intros [X Y]. destruct p as [|y p]; [injection X as <-; reflexivity|]. injection X as <- _. exfalso. apply Y. left. reflexivity.
    + destruct (cut b l) as [[p' q']|] eqn:C.
      * destruct (IH p' q') as [H1 _]. specialize (H1 eq_refl) as [H1 H2]. split.
        -- intros X. injection X as <- <-. subst l. split; [reflexivity|]. intros [->|X]; [rewrite byte_eqb_refl in E; discriminate E | exact (H2 X)].
        -- intros [X Y]. destruct p as [|y p]; [injection X as -> _; rewrite byte_eqb_refl in E; discriminate E|]. injection X as <- X.
           assert (Z : Some (p', q') = Some (p, q)) by (apply IH; split; [exact X | intros Z; apply Y; right; exact Z]). injection Z as -> ->. reflexivity.
      * split; [discriminate|]. intros [X Y]. destruct p as [|y p]; [injection X as -> _; rewrite byte_eqb_refl in E; discriminate E|]. injection X as <- X.
        assert (Z : None = Some (p, q)) by (apply IH; split; [exact X | intros Z; apply Y; right; exact Z]). discriminate Z.
Qed.
Lemma cut_none b l : cut b l = None <-> ~ In b l.
Proof.
  induction l as [|x l IH]; cbn [cut]; [split; [intros _ [] | reflexivity]|]. destruct (Byte.eqb x b) eqn:E.
  - apply byte_eqb_eq in E. split; [discriminate | intros X; exfalso; apply X; left; exact E].
  - destruct (cut b l) as [[p q]|].
    + split; [discriminate|]. intros X. exfalso. assert (~ In b l) by (intros Y; apply X; right; exact Y). apply IH in H. discriminate H.
    + split; [|reflexivity]. intros _ [->|X]; [rewrite byte_eqb_refl in E; discriminate E | exact (proj1 IH eq_refl X)].
Qed.
Lemma has_in b l : has b l = true <-> In b l.
Proof.
  unfold has. rewrite existsb_exists. split; [intros (x & Hx & E); apply byte_eqb_eq in E; subst x; exact Hx | intros Hx; exists b; split; [exact Hx | apply byte_eqb_refl]].
Qed.
Lemma has_not b l : has b l = false <-> ~ In b l.
Proof. rewrite <- has_in. destruct (has b l); split; congruence. Qed.
Lemma cut_app b l t p q : cut b l = Some (p, q) -> cut b (l ++ t) = Some (p, q ++ t).
Proof. intros H. apply cut_some in H as [-> H]. apply cut_some. split; [rewrite <- app_assoc; reflexivity | exact H]. Qed.
Lemma split_cut b l : split_on b l = match cut b l with Some (p, q) => p :: split_on b q | None => [l] end.
Proof.
  induction l as [|x l IH]; [reflexivity|]. cbn [split_on cut]. destruct (Byte.eqb x b); [reflexivity|]. rewrite IH. destruct (cut b l) as [[p q]|]; reflexivity.
Qed.

(** ** The scan of the fast parser *)
Definition span (L : bytes) (o : option (nat * nat)) (f : option bytes) : Prop :=
  match o, f with
  | Some (a, b), Some x => a <= b <= length L /\ slice_of L a b = x
  | None, None => True
  | _, _ => False
  end.
Definition scanned (L : bytes) (fs : list bytes) (s : scan) : Prop :=
  s_index s = length fs /\ span L (s_cert s) (nth_error fs 3) /\ span L (s_chain s) (nth_error fs 4) /\
  span L (s_last s) (match rev fs with f :: _ => Some f | [] => None end).
Lemma nth_error_snoc (fs : list bytes) f k : nth_error (fs ++ [f]) k = if length fs =? k then Some f else nth_error fs k.
Proof.
  destruct (Nat.eqb_spec (length fs) k) as [<-|Hk]; [rewrite nth_error_app2, Nat.sub_diag by lia; reflexivity|].
  destruct (Nat.lt_ge_cases k (length fs)) as [H|H]; [apply nth_error_app1; exact H|].
  rewrite (proj2 (nth_error_None (fs ++ [f]) k)) by (rewrite app_length; cbn; lia). symmetry. apply nth_error_None. exact H.
Qed.
Lemma slice_mid (P cur l : bytes) : slice_of (P ++ cur ++ l) (length P) (length P + length cur) = cur.
Proof.
  unfold slice_of. rewrite skipn_app, skipn_all, Nat.sub_diag. cbn [app skipn]. replace (length P + length cur - length P) with (length cur) by lia.
  rewrite firstn_app, Nat.sub_diag, firstn_all. cbn. apply app_nil_r.
Qed.
Lemma field_end_scanned L fs s P cur l : L = P ++ cur ++ l -> s_start s = length P -> scanned L fs s ->
  scanned L (fs ++ [cur]) (field_end s (length P + length cur)).
Proof.
  intros HL Hst (H1 & H2 & H3 & H4).
  assert (Hsp : span L (Some (s_start s, length P + length cur)) (Some cur)).
  { cbn. rewrite Hst, HL. split; [rewrite !app_length; lia | apply slice_mid]. }
  split; [cbn [field_end s_index]; rewrite app_length; cbn; lia|]. cbn [field_end s_cert s_chain s_last]. rewrite !nth_error_snoc, rev_app_distr, H1.
  cbn [rev app]. unfold CertificateColumn, CertChainColumn. split; [destruct (length fs =? 3); assumption|]. split; [destruct (length fs =? 4); assumption | exact Hsp].
Qed.
Lemma scan_row_ok L : forall l P cur fs s, L = P ++ cur ++ l -> s_start s = length P -> scanned L fs s ->
  scanned L (fs ++ match split_on comma l with f :: r => (cur ++ f) :: r | [] => [] end) (scan_row l (length P + length cur) s).
Proof.
  induction l as [|x l IH]; intros P cur fs s HL Hst Hs; cbn [scan_row split_on].
  - rewrite app_nil_r. exact (field_end_scanned L fs s P cur [] HL Hst Hs).
  - destruct (Byte.eqb x comma) eqn:E.
    + apply byte_eqb_eq in E. subst x. pose proof (field_end_scanned L fs s P cur (comma :: l) HL Hst Hs) as Hs'.
      specialize (IH (P ++ cur ++ [comma]) [] (fs ++ [cur]) (field_end s (length P + length cur))).
      rewrite !app_length in IH. cbn [length] in IH. replace (length P + (length cur + 1) + 0) with (S (length P + length cur)) in IH by lia.
      rewrite app_nil_r. replace (fs ++ cur :: split_on comma l) with ((fs ++ [cur]) ++ match split_on comma l with f :: r => ([] ++ f) :: r | [] => [] end).
      * apply IH; [rewrite HL, <- !app_assoc; reflexivity | cbn; lia | exact Hs'].
      * rewrite <- app_assoc. cbn [app]. destruct (split_on comma l); reflexivity.
    + specialize (IH P (cur ++ [x]) fs s). rewrite app_length in IH. cbn [length] in IH. replace (length P + (length cur + 1)) with (S (length P + length cur)) in IH by lia.
      pose proof (split_ne comma l) as Hne. destruct (split_on comma l) as [|f r]; [congruence|].
      rewrite <- !app_assoc in IH. cbn [app] in IH. apply IH; [exact HL | exact Hst | exact Hs].
Qed.
Lemma last_rev (fs : list bytes) : fs <> [] -> match rev fs with f :: _ => Some f | [] => None end = Some (last fs []).
Proof. intros H. destruct fs as [|f fs] using rev_ind; [congruence|]. rewrite rev_app_distr, last_last. reflexivity. Qed.

(** What the fast parser does, in terms of the fields. *)
Definition fast_spec (l : bytes) : disposition :=
  if length l =? 0 then Hard
  else if has quote l then Fallback
  else
    let fs := split_on comma l in
    match nth_error fs 3, nth_error fs 4 with
    | Some c, Some h =>
        if length c =? 0 then Hard else if looks_like_expiration (last fs []) then FastOK (mk_parsed c h (last fs [])) else Fallback
    | _, _ => Hard
    end.
Lemma parse_row_fast_spec l : parse_row_fast l = fast_spec l.
Proof.
  unfold parse_row_fast, fast_spec. destruct (length l =? 0); [reflexivity|]. destruct (has quote l); [reflexivity|].
  pose proof (scan_row_ok l l [] [] [] (mk_scan 0 0 None None None) eq_refl eq_refl ltac:(repeat split)) as H. cbn [length Nat.add app] in H.
  pose proof (split_ne comma l) as Hne. destruct (split_on comma l) as [|f0 r0]; [congruence|]. set (fs := f0 :: r0 : list bytes) in *. change (scanned l fs (scan_row l 0 (mk_scan 0 0 None None None))) in H.
  destruct H as (_ & H3 & H4 & Hl). rewrite (last_rev fs Hne) in Hl. cbv zeta.
  destruct (s_cert _) as [[a b]|], (nth_error fs 3) as [c|]; cbn [span] in H3; try contradiction; [|reflexivity].
  destruct (s_chain _) as [[c1 d]|], (nth_error fs 4) as [h|]; cbn [span] in H4; try contradiction; [|reflexivity].
  destruct (s_last _) as [[e f]|]; cbn [span] in Hl; [|contradiction]. destruct H3 as [H3 E3], H4 as [H4 E4], Hl as [Hl El].
  assert (Hab : (a =? b) = (length c =? 0)).
  { subst c. unfold slice_of. rewrite firstn_length, skipn_length. destruct (Nat.eqb_spec a b), (Nat.eqb_spec (Nat.min (b - a) (length l - a)) 0); try reflexivity; lia. }
  rewrite Hab, E3, E4, El. reflexivity.
Qed.

(** ** encoding/csv on a line without quotes *)
Lemma drop_nl_clean l : ~ In nl l -> drop_nl l = l.
Proof.
  intros H. unfold drop_nl, ends_nl. destruct (rev l) as [|x r] eqn:E; [reflexivity|]. destruct (Byte.eqb x nl) eqn:X; [|reflexivity].
  apply byte_eqb_eq in X. exfalso. apply H. apply in_rev. rewrite E. left. exact X.
Qed.
Lemma drop_nl_snoc l : drop_nl (l ++ [nl]) = l.
Proof. unfold drop_nl, ends_nl. rewrite rev_app_distr. cbn. apply removelast_last. Qed.
Lemma fields_plain fuel : forall l inp acc, ~ In quote l -> ~ In nl l -> length l < fuel -> fields fuel false l inp acc [] = Some (Ok (acc ++ split_on comma l, inp)).
Proof.
  induction fuel as [|fuel IH]; intros l inp acc Hq Hn Hf; [lia|]. cbn [fields]. destruct l as [|x l]; [reflexivity|].
  replace (Byte.eqb x quote) with false by (symmetry; apply not_true_iff_false; intros X; apply byte_eqb_eq in X; apply Hq; left; exact X).
  rewrite split_cut. destruct (cut comma (x :: l)) as [[f rest]|] eqn:C.
  - apply cut_some in C as [C _]. replace (has quote f) with false by (symmetry; apply has_not; intros X; apply Hq; rewrite C; apply in_or_app; left; exact X).
    rewrite IH; [rewrite <- app_assoc; reflexivity | | |].
    + intros X. apply Hq. rewrite C. apply in_or_app. right. right. exact X.
    + intros X. apply Hn. rewrite C. apply in_or_app. right. right. exact X.
    + apply (f_equal (@length byte)) in C. rewrite app_length in C. cbn [length] in C. cbn [length] in Hf. lia.
  - rewrite drop_nl_clean by exact Hn. apply has_not in Hq. rewrite Hq. reflexivity.
Qed.
Definition ends_cr (l : bytes) : Prop := exists r, l = r ++ [cr].
Lemma read_line_last l : l <> [] -> ~ In nl l -> ~ ends_cr l -> read_line l = (l, false, []).
Proof.
  intros Hne Hn Hc. unfold read_line, upto_nl. apply cut_none in Hn. rewrite Hn. destruct l as [|x l]; [congruence|].
  destruct (rev (x :: l)) as [|y r] eqn:E; [reflexivity|]. destruct (Byte.eqb y cr) eqn:Y; [|reflexivity].
  exfalso. apply Hc. apply byte_eqb_eq in Y. subst y. exists (rev r). rewrite <- (rev_involutive (x :: l)), E. reflexivity.
Qed.
Lemma csv_record_last l : l <> [] -> ~ In nl l -> ~ ends_cr l -> csv_record l = match fields (S (S (length l + 0))) false l [] [] [] with Some (Ok r) => Some (Ok (Some r)) | Some _ => Some Err | None => None end.
Proof.
  intros Hne Hn Hc. unfold csv_record. cbn [csv_read]. rewrite read_line_last, drop_nl_clean by assumption. destruct l as [|x l]; [congruence | reflexivity].
Qed.
Lemma csv_plain l : l <> [] -> ~ In nl l -> ~ In quote l -> ~ ends_cr l -> csv_record l = Some (Ok (Some (split_on comma l, []))).
Proof. intros Hne Hn Hq Hc. rewrite csv_record_last, fields_plain by (auto; lia). reflexivity. Qed.

(** ** Trimming *)
Lemma trim_left_spec l : exists t, l = t ++ trim_left l /\ Forall (fun x => x = cr \/ x = nl) t /\ match trim_left l with x :: _ => x <> cr /\ x <> nl | [] => True end.
Proof.
  induction l as [|x l IH]; [exists []; repeat split; constructor|]. destruct IH as (t & E & Ht & Hh). cbn [trim_left]. destruct (Byte.eqb x cr || Byte.eqb x nl) eqn:X.
  - exists (x :: t). split; [cbn; f_equal; exact E|]. split; [|exact Hh]. constructor; [|exact Ht]. apply orb_true_iff in X as [X|X]; apply byte_eqb_eq in X; auto.
  - exists []. split; [reflexivity|]. split; [constructor|]. apply orb_false_iff in X as [X1 X2]. split; intros ->; rewrite byte_eqb_refl in *; discriminate.
Qed.
Lemma trim_right_spec l : exists t, l = trim_right l ++ t /\ Forall (fun x => x = cr \/ x = nl) t /\ ~ ends_cr (trim_right l) /\ (forall r, trim_right l <> r ++ [nl]).
Proof.
  unfold trim_right. destruct (trim_left_spec (rev l)) as (t & E & Ht & Hh). exists (rev t). split.
  - rewrite <- rev_app_distr, <- E, rev_involutive. reflexivity.
  - split; [apply Forall_rev; exact Ht|]. split.
    + intros (r & X). apply (f_equal (@rev byte)) in X. rewrite rev_involutive, rev_app_distr in X. rewrite X in Hh. cbn in Hh. destruct Hh as [Y _]. congruence.
    + intros r X. apply (f_equal (@rev byte)) in X. rewrite rev_involutive, rev_app_distr in X. rewrite X in Hh. cbn in Hh. destruct Hh as [_ Y]. congruence.
Qed.
Lemma fast_last l p : fast_spec l = FastOK p -> l <> [] /\ ~ In quote l /\ let fs := split_on comma l in nth_error fs 3 = Some (p_cert p) /\ nth_error fs 4 = Some (p_chain p) /\ last fs [] = p_exp p /\
  looks_like_expiration (p_exp p) = true /\ p_cert p <> [].
Proof.
  unfold fast_spec. destruct (Nat.eqb_spec (length l) 0) as [|Hl]; [discriminate|]. destruct (has quote l) eqn:Q; [discriminate|]. apply has_not in Q. cbv zeta.
  destruct (nth_error (split_on comma l) 3) as [c|]; [|discriminate]. destruct (nth_error (split_on comma l) 4) as [h|]; [|discriminate].
  destruct (Nat.eqb_spec (length c) 0) as [|Hc]; [discriminate|]. destruct (looks_like_expiration (last (split_on comma l) [])) eqn:X; [|discriminate].
  intros Y. injection Y as <-. split; [intros ->; cbn in Hl; lia|]. split; [exact Q|]. repeat split; auto. cbn [p_cert]. intros Z. subst c. cbn in Hc. lia.
Qed.
Lemma looks_ne f : looks_like_expiration f = true -> f <> [].
Proof. intros H ->. discriminate H. Qed.
Lemma looks_not_cr f : looks_like_expiration f = true -> forall r x, f = r ++ [x] -> is_digit x = true.
Proof.
  unfold looks_like_expiration. destruct (length f <? 3); [discriminate|]. destruct (cut full_stop f) as [[p q]|] eqn:C; [|discriminate]. intros H r x E.
  apply andb_true_iff in H as [H H2]. apply andb_true_iff in H as [H H1]. apply andb_true_iff in H as [Hp Hq]. apply cut_some in C as [C _].
  destruct q as [|y q] using rev_ind; [discriminate Hq|]. rewrite app_comm_cons, app_assoc in C. rewrite C in E. apply app_inj_tail in E as [_ <-].
  rewrite forallb_app in H2. apply andb_true_iff in H2 as [_ H2]. cbn in H2. rewrite andb_true_r in H2. exact H2.
Qed.
Lemma split_last b l : exists q, l = q ++ last (split_on b l) [] .
Proof.
  induction l as [|x l IH]; [exists []; reflexivity|]. destruct IH as (q & E). cbn [split_on]. destruct (Byte.eqb x b).
  - exists (x :: q). rewrite E at 1. pose proof (split_ne b l). destruct (split_on b l); [congruence | reflexivity].
  - destruct (split_on b l) as [|f fs] eqn:S; [exfalso; exact (split_ne b l S)|]. destruct fs as [|g fs].
    + exists []. cbn in *. pose proof (split_join b l) as J. rewrite S in J. cbn in J. subst f. reflexivity.
    + exists (x :: q). cbn [last] in *. rewrite E at 1. reflexivity.
Qed.
Lemma fast_no_cr l p : fast_spec l = FastOK p -> ~ ends_cr l.
Proof.
  intros H (r & X). destruct (fast_last l p H) as (_ & _ & _ & _ & Hl & He & _). destruct (split_last comma l) as (q & E). rewrite Hl in E.
  destruct (p_exp p) as [|y e _] using rev_ind; [exact (looks_ne [] He eq_refl)|].
  pose proof (looks_not_cr _ He e y eq_refl) as D. rewrite X, app_assoc in E. apply app_inj_tail in E as [_ <-]. discriminate D.
Qed.
Lemma nth_error_nth_some {A} (l : list A) n x d : nth_error l n = Some x -> nth n l d = x.
Proof. apply nth_error_nth. Qed.
Lemma fast_columns l p : fast_spec l = FastOK p -> columns (split_on comma l) = Some p.
Proof.
  intros H. destruct (fast_last l p H) as (_ & _ & H3 & H4 & Hl & He & _). unfold columns, CertChainColumn, CertificateColumn.
  assert (4 < length (split_on comma l)) by (apply nth_error_Some; congruence). replace (length (split_on comma l) <=? 4) with false by (symmetry; apply Nat.leb_gt; lia).
  rewrite Hl. pose proof (looks_ne _ He). destruct (p_exp p) as [|x e] eqn:X; [congruence|]. cbn [length Nat.eqb]. pose proof (nth_error_nth_some _ _ _ [] H3) as N3. pose proof (nth_error_nth_some _ _ _ [] H4) as N4. destruct p as [c h y]. cbn [p_cert p_chain p_exp] in *. subst y. f_equal. f_equal; assumption.
Qed.
Lemma fast_agrees l p : ~ In nl l -> parse_row_fast l = FastOK p ->
  exists fs, csv_record l = Some (Ok (Some (fs, []))) /\ nth_error fs 3 = Some (p_cert p) /\ nth_error fs 4 = Some (p_chain p) /\ last fs [] = p_exp p /\ parse_row_slow l = Some (Ok p).
Proof.
  intros Hn. rewrite parse_row_fast_spec. intros H. destruct (fast_last l p H) as (Hne & Hq & H3 & H4 & Hl & He & _).
  pose proof (csv_plain l Hne Hn Hq (fast_no_cr l p H)) as E. exists (split_on comma l). repeat split; auto. unfold parse_row_slow. rewrite E, (fast_columns l p H). reflexivity.
Qed.
Lemma parse_line_agrees raw : ~ In nl (trim_right raw) ->
  parse_line raw = parse_row_slow (trim_right raw) \/
  (parse_line raw = Some Err /\ ~ In quote (trim_right raw) /\ nth_error (split_on comma (trim_right raw)) 3 = Some []).
Proof.
  intros Hn. unfold parse_line. destruct (trim_right_spec raw) as (_ & _ & _ & Hc & _). set (l := trim_right raw) in *.
  destruct (parse_row_fast l) as [p| |] eqn:E; [left; destruct (fast_agrees l p Hn E) as (fs & _ & _ & _ & _ & ->); reflexivity | left; reflexivity|].
  rewrite parse_row_fast_spec in E. unfold fast_spec in E. destruct (Nat.eqb_spec (length l) 0) as [Hl|Hl].
  - left. destruct l; [reflexivity | cbn in Hl; lia].
  - destruct (has quote l) eqn:Q; [discriminate E|]. apply has_not in Q. assert (Hne : l <> []) by (intros ->; cbn in Hl; lia). cbv zeta in E.
    destruct (nth_error (split_on comma l) 3) as [c|] eqn:H3.
    + destruct (nth_error (split_on comma l) 4) as [h|] eqn:H4.
      * destruct (Nat.eqb_spec (length c) 0) as [X|X]; [|destruct (looks_like_expiration _); discriminate E].
        right. split; [reflexivity|]. split; [exact Q|]. destruct c; [reflexivity | cbn in X; lia].
      * left. unfold parse_row_slow. rewrite csv_plain by assumption. unfold columns, CertChainColumn. apply nth_error_None in H4. replace (_ <=? 4) with true by (symmetry; apply Nat.leb_le; exact H4). reflexivity.
    + left. unfold parse_row_slow. rewrite csv_plain by assumption. unfold columns, CertChainColumn. apply nth_error_None in H3. replace (_ <=? 4) with true by (symmetry; apply Nat.leb_le; lia). reflexivity.
Qed.

(** ** A line of a file, and the line alone *)
Lemma fields_more fuel : forall q l inp acc cur r, fields fuel q l inp acc cur = Some r -> forall fuel', fuel <= fuel' -> fields fuel' q l inp acc cur = Some r.
Proof.
  induction fuel as [|fuel IH]; intros q l inp acc cur r H fuel' Hf; [discriminate H|]. destruct fuel' as [|fuel']; [lia|]. cbn [fields] in *. assert (Hf' : fuel <= fuel') by lia.
  destruct q.
  - destruct (cut quote l) as [[p w]|]; [|destruct l; [exact H|]; destruct (read_line inp) as [[line' e] inp']; exact (IH _ _ _ _ _ _ H _ Hf')].
    destruct w as [|x w]; [exact H|]. destruct (Byte.eqb x quote); [exact (IH _ _ _ _ _ _ H _ Hf')|]. destruct (Byte.eqb x comma); [exact (IH _ _ _ _ _ _ H _ Hf') | exact H].
  - destruct l as [|x l]; [exact H|]. destruct (Byte.eqb x quote); [exact (IH _ _ _ _ _ _ H _ Hf')|]. destruct (cut comma (x :: l)) as [[f rest]|]; [|exact H].
    destruct (has quote f); [exact H | exact (IH _ _ _ _ _ _ H _ Hf')].
Qed.
Lemma fields_ext fuel : forall q l acc cur fs r, ~ In nl l -> fields fuel q l [] acc cur = Some (Ok (fs, r)) ->
  r = [] /\ forall rest, fields fuel q (l ++ [nl]) rest acc cur = Some (Ok (fs, rest)).
Proof.
  induction fuel as [|fuel IH]; intros q l acc cur fs r Hn H; [discriminate H|]. cbn [fields] in *. destruct q.
  - destruct (cut quote l) as [[p w]|] eqn:C.
    + pose proof (cut_app quote l [nl] p w C) as C'. apply cut_some in C as [C _].
      assert (Hw : ~ In nl w) by (intros X; apply Hn; rewrite C; apply in_or_app; right; right; exact X).
      destruct w as [|x w]; cbn [app] in C'.
      * injection H as <- <-. split; [reflexivity|]. intros rest. rewrite C'. reflexivity.
      * assert (Hx : Byte.eqb x nl = false) by (apply not_true_iff_false; intros X; apply byte_eqb_eq in X; apply Hw; left; exact X).
        assert (Hw' : ~ In nl w) by (intros X; apply Hw; right; exact X).
        destruct (Byte.eqb x quote) eqn:X1.
        -- destruct (IH _ _ _ _ _ _ Hw' H) as [-> G]. split; [reflexivity|]. intros rest. rewrite C', X1. apply G.
        -- destruct (Byte.eqb x comma) eqn:X2; [|rewrite Hx in H; discriminate H].
           destruct (IH _ _ _ _ _ _ Hw' H) as [-> G]. split; [reflexivity|]. intros rest. rewrite C', X1, X2. apply G.
    + destruct l as [|x l]; [discriminate H|]. exfalso. change (read_line []) with ([] : bytes, true, [] : bytes) in H. cbv iota in H.
      destruct fuel; [discriminate H|]. cbn in H. discriminate H.
  - destruct l as [|x l].
    + injection H as <- <-. split; [reflexivity|]. intros rest. reflexivity.
    + cbn [app]. destruct (Byte.eqb x quote) eqn:X1.
      * destruct (IH _ l _ _ _ _ ltac:(intros X; apply Hn; right; exact X) H) as [-> G]. split; [reflexivity | exact G].
      * destruct (cut comma (x :: l)) as [[f rest']|] eqn:C.
        -- pose proof (cut_app comma (x :: l) [nl] f rest' C) as C'. apply cut_some in C as [C _]. destruct (has quote f) eqn:Hf; [discriminate H|].
           destruct (IH _ rest' _ _ _ _ ltac:(intros X; apply Hn; rewrite C; apply in_or_app; right; right; exact X) H) as [-> G]. split; [reflexivity|]. intros rest.
           cbn [app] in C'. rewrite C', Hf. apply G.
        -- rewrite drop_nl_clean in H by exact Hn. destruct (has quote (x :: l)) eqn:Q; [discriminate H|]. injection H as <- <-. split; [reflexivity|]. intros rest.
           assert (C' : cut comma (x :: l ++ [nl]) = None) by (apply cut_none; apply cut_none in C; intros X; apply C; change (x :: l ++ [nl]) with ((x :: l) ++ [nl]) in X; apply in_app_or in X as [X|[X|[]]]; [exact X | discriminate X]).
           rewrite C'. change (x :: l ++ [nl]) with ((x :: l) ++ [nl]). rewrite drop_nl_snoc, Q. reflexivity.
Qed.

Inductive ending : bytes -> Prop := ending_none : ending [] | ending_cr : ending [cr].
Lemma read_line_nl body t rest : ~ In nl body -> ~ ends_cr body -> ending t -> read_line (body ++ t ++ nl :: rest) = (body ++ [nl], false, rest).
Proof.
  intros Hn Hc Ht. unfold read_line, upto_nl. assert (C : cut nl (body ++ t ++ nl :: rest) = Some (body ++ t, rest)).
  { apply cut_some. rewrite <- app_assoc. split; [reflexivity|]. intros X. apply in_app_or in X as [X|X]; [exact (Hn X)|]. destruct Ht; [destruct X | destruct X as [X|[]]; discriminate X]. }
  rewrite C. rewrite rev_app_distr. destruct Ht as [|].
  - rewrite app_nil_r. cbn [rev app]. destruct (rev body) as [|y r] eqn:E; [reflexivity|]. destruct (Byte.eqb y cr) eqn:Y; [|reflexivity].
    exfalso. apply Hc. apply byte_eqb_eq in Y. subst y. exists (rev r). rewrite <- (rev_involutive body), E. reflexivity.
  - rewrite rev_app_distr. cbn [rev app]. rewrite byte_eqb_refl, rev_involutive. reflexivity.
Qed.
Lemma csv_record_nl body t rest fs r : body <> [] -> ~ In nl body -> ~ ends_cr body -> ending t -> csv_record body = Some (Ok (Some (fs, r))) ->
  csv_record (body ++ t ++ nl :: rest) = Some (Ok (Some (fs, rest))).
Proof.
  intros Hne Hn Hc Ht H. rewrite csv_record_last in H by assumption. destruct (fields _ false body [] [] []) as [[[fs' r']| |]|] eqn:F; try discriminate H. injection H as -> ->.
  destruct (fields_ext _ _ _ _ _ _ _ Hn F) as [-> G]. unfold csv_record. cbn [csv_read]. rewrite read_line_nl by assumption. rewrite drop_nl_snoc.
  destruct (Nat.eqb_spec (length body) 0) as [X|X]; [destruct body; [congruence | cbn in X; lia]|].
  rewrite (fields_more _ _ _ _ _ _ _ (G rest)); [reflexivity|]. rewrite app_length. cbn. lia.
Qed.
Lemma csv_record_eof body t fs r : body <> [] -> ~ In nl body -> ~ ends_cr body -> ending t -> csv_record body = Some (Ok (Some (fs, r))) ->
  csv_record (body ++ t) = Some (Ok (Some (fs, []))).
Proof.
  intros Hne Hn Hc Ht H. assert (r = []) as ->.
  { rewrite csv_record_last in H by assumption. destruct (fields _ false body [] [] []) as [[[fs' r']| |]|] eqn:F; try discriminate H. injection H as -> ->. exact (proj1 (fields_ext _ _ _ _ _ _ _ Hn F)). }
  destruct Ht; [rewrite app_nil_r; exact H|]. rewrite csv_record_last in H by assumption. unfold csv_record. cbn [csv_read].
  assert (R : read_line (body ++ [cr]) = (body, false, [])).
  { unfold read_line, upto_nl. assert (C : cut nl (body ++ [cr]) = None) by (apply cut_none; intros X; apply in_app_or in X as [X|[X|[]]]; [exact (Hn X) | discriminate X]). rewrite C.
    destruct (body ++ [cr]) as [|x l] eqn:E; [destruct body; discriminate E|]. rewrite <- E, rev_app_distr. cbn [rev app]. rewrite byte_eqb_refl, rev_involutive. reflexivity. }
  rewrite R, drop_nl_clean by exact Hn. destruct (Nat.eqb_spec (length body) 0) as [X|X]; [destruct body; [congruence | cbn in X; lia] | exact H].
Qed.

(** ** Files *)
(** No two carriage returns in a row. *)
Fixpoint single_cr (l : bytes) : Prop := match l with x :: ((y :: _) as l') => ~ (x = cr /\ y = cr) /\ single_cr l' | _ => True end.
Lemma single_cr_app l r : single_cr (l ++ r) -> single_cr l /\ single_cr r.
Proof.
  induction l as [|x l IH]; [cbn; auto|]. destruct l as [|y l].
  - intros H. split; [exact I|]. destruct r as [|y r]; [exact I | exact (proj2 H)].
  - intros [H1 H2]. destruct (IH H2) as [H3 H4]. split; [split; assumption | exact H4].
Qed.
Lemma ending_of t : Forall (fun x => x = cr \/ x = nl) t -> ~ In nl t -> single_cr t -> ending t.
Proof.
  intros Ht Hn Hs. assert (Hc : Forall (fun x => x = cr) t).
  { apply Forall_forall. intros x Hx. rewrite Forall_forall in Ht. destruct (Ht x Hx) as [->| ->]; [reflexivity | exfalso; exact (Hn Hx)]. }
  destruct t as [|x [|y t]]; [constructor | inversion Hc; subst; constructor|]. inversion Hc as [|? ? -> Hc']; inversion Hc' as [|? ? -> _]; subst. exfalso. exact (proj1 Hs (conj eq_refl eq_refl)).
Qed.
Lemma trim_line p : ~ In nl p -> trim_right (p ++ [nl]) = trim_right p.
Proof. intros _. unfold trim_right. rewrite rev_app_distr. reflexivity. Qed.

Lemma slow_record l p : parse_row_slow l = Some (Ok p) -> exists fs r, csv_record l = Some (Ok (Some (fs, r))) /\ columns fs = Some p.
Proof.
  unfold parse_row_slow. destruct (csv_record l) as [[[[fs r]|]| |]|]; try discriminate. destruct (columns fs) as [q|] eqn:C; [|discriminate].
  intros X. injection X as ->. eauto.
Qed.
(** A row that is accepted, with its ending: the record encoding/csv reads there. *)
Lemma line_record p row : ~ In nl p -> single_cr p -> parse_line p = Some (Ok row) ->
  exists body t fs r, p = body ++ t /\ ending t /\ body <> [] /\ ~ In nl body /\ ~ ends_cr body /\ csv_record body = Some (Ok (Some (fs, r))) /\ columns fs = Some row.
Proof.
  intros Hn Hs H. destruct (trim_right_spec p) as (t & E & Ht & Hc & _).
  assert (Hnb : ~ In nl (trim_right p)) by (intros X; apply Hn; rewrite E; apply in_or_app; left; exact X).
  assert (Hnt : ~ In nl t) by (intros X; apply Hn; rewrite E; apply in_or_app; right; exact X).
  rewrite E in Hs. apply single_cr_app in Hs as [_ Hs].
  destruct (parse_line_agrees p Hnb) as [A|[A _]]; [|congruence]. rewrite A in H. destruct (slow_record _ _ H) as (fs & r & H1 & H2).
  exists (trim_right p), t, fs, r. split; [exact E|]. split; [apply ending_of; assumption|]. split; [|auto].
  intros X. rewrite X in H1. discriminate H1.
Qed.
Lemma parse_line_trim p : parse_line (p ++ [nl]) = parse_line p.
Proof. unfold parse_line, trim_right. rewrite rev_app_distr. reflexivity. Qed.
Lemma upto_nl_spec inp : match upto_nl inp with Some (line, rest) => exists p, line = p ++ [nl] /\ inp = p ++ nl :: rest /\ ~ In nl p | None => ~ In nl inp end.
Proof.
  unfold upto_nl. destruct (cut nl inp) as [[p q]|] eqn:C; [apply cut_some in C as [C1 C2]; eauto | apply cut_none; exact C].
Qed.
Lemma read_file_csv fuel : forall inp rows, single_cr inp -> read_file fuel inp = Some (rows, false) ->
  exists recs, (forall fuel', length inp < fuel' -> csv_all fuel' inp = Some (Ok recs)) /\ map columns recs = map Some rows.
Proof.
  induction fuel as [|fuel IH]; intros inp rows Hs H; [discriminate H|]. cbn [read_file] in H. pose proof (upto_nl_spec inp) as U. destruct (upto_nl inp) as [[line rest]|].
  - destruct U as (p & -> & -> & Hn). rewrite parse_line_trim in H. destruct (parse_line p) as [[row| |]|] eqn:P; try discriminate H.
    destruct (read_file fuel rest) as [[ps e]|] eqn:R; [|discriminate H]. injection H as <- ->.
    apply single_cr_app in Hs as [Hs1 Hs2]. assert (Hs3 : single_cr rest) by (destruct rest as [|y rest]; [exact I | exact (proj2 Hs2)]).
    destruct (IH rest ps Hs3 R) as (recs & H1 & H2). destruct (line_record p row Hn Hs1 P) as (body & t & fs & r & -> & Ht & Hne & Hnb & Hc & Hr & Hcol).
    exists (fs :: recs). split; [|cbn; rewrite Hcol, H2; reflexivity]. intros fuel' Hf. destruct fuel' as [|fuel']; [lia|]. cbn [csv_all]. rewrite <- app_assoc.
    rewrite (csv_record_nl body t rest fs r Hne Hnb Hc Ht Hr). rewrite H1; [reflexivity|]. rewrite !app_length in Hf. cbn in Hf. lia.
  - destruct inp as [|x inp].
    + injection H as <-. exists []. split; [|reflexivity]. intros fuel' Hf. destruct fuel' as [|fuel']; [cbn in Hf; lia | reflexivity].
    + destruct (parse_line (x :: inp)) as [[row| |]|] eqn:P; try discriminate H. injection H as <-.
      destruct (line_record _ row U Hs P) as (body & t & fs & r & E & Ht & Hne & Hnb & Hc & Hr & Hcol). exists [fs]. split; [|cbn; rewrite Hcol; reflexivity].
      intros fuel' Hf. destruct fuel' as [|fuel']; [lia|]. cbn [csv_all]. rewrite E, (csv_record_eof body t fs r Hne Hnb Hc Ht Hr).
      destruct fuel' as [|fuel']; [cbn in Hf; lia|]. reflexivity.
Qed.

(** ** Enough fuel *)
Lemma read_line_length inp line e rest : read_line inp = (line, e, rest) -> length line + length rest <= length inp.
Proof.
  unfold read_line. pose proof (upto_nl_spec inp) as U. destruct (upto_nl inp) as [[l q]|].
  - destruct U as (p & -> & -> & _). rewrite (app_length p (nl :: q)), rev_app_distr. cbn [rev app length]. intros X. injection X as <- <- <-. destruct (rev p) as [|y r] eqn:E; [rewrite app_length; cbn [length]; lia|].
    assert (length p = S (length r)) by (rewrite <- rev_length, E; reflexivity). destruct (Byte.eqb y cr); rewrite app_length; [rewrite rev_length|]; cbn [length]; lia.
  - destruct inp as [|x inp]; [intros X; injection X as <- <- <-; cbn; lia|]. intros X. apply pair_equal_spec in X as [X <-]. apply pair_equal_spec in X as [<- <-].
    destruct (rev (x :: inp)) as [|y r] eqn:E; [apply (f_equal (@length byte)) in E; rewrite rev_length in E; discriminate E|]. assert (length (x :: inp) = S (length r)) by (rewrite <- rev_length, E; reflexivity).
    destruct (Byte.eqb y cr); [rewrite rev_length|]; cbn [length] in *; lia.
Qed.
Lemma cut_length b l p q : cut b l = Some (p, q) -> length l = length p + S (length q).
Proof. intros H. apply cut_some in H as [-> _]. rewrite app_length. reflexivity. Qed.
Lemma fields_fuel fuel : forall q l inp acc cur, length l + length inp < fuel -> fields fuel q l inp acc cur <> None.
Proof.
  induction fuel as [|fuel IH]; intros q l inp acc cur Hf; [lia|]. cbn [fields]. destruct q.
  - destruct (cut quote l) as [[p w]|] eqn:C.
    + apply cut_length in C. destruct w as [|x w]; [discriminate|]. cbn [length] in C.
      destruct (Byte.eqb x quote); [apply IH; lia|]. destruct (Byte.eqb x comma); [apply IH; lia|]. destruct (_ && _); discriminate.
    + destruct l as [|x l]; [discriminate|]. destruct (read_line inp) as [[line' e] inp'] eqn:R. apply read_line_length in R. apply IH. cbn [length] in Hf. lia.
  - destruct l as [|x l]; [discriminate|]. destruct (Byte.eqb x quote); [apply IH; cbn [length] in Hf; lia|]. destruct (cut comma (x :: l)) as [[f rest]|] eqn:C.
    + apply cut_length in C. destruct (has quote f); [discriminate|]. apply IH. lia.
    + destruct (has quote _); discriminate.
Qed.
Lemma csv_read_fuel fuel : forall inp, length inp < fuel -> csv_read fuel inp <> None.
Proof.
  induction fuel as [|fuel IH]; intros inp Hf; [lia|]. cbn [csv_read]. destruct (read_line inp) as [[line e] rest] eqn:R. pose proof (read_line_length _ _ _ _ R) as L.
  destruct e; [discriminate|]. destruct (length (drop_nl line) =? 0) eqn:Z.
  - apply IH. destruct line as [|x line].
    + (* an empty line that is not the end of the input: a lone carriage return *)
      unfold read_line in R. pose proof (upto_nl_spec inp) as U. destruct (upto_nl inp) as [[l q]|].
      * destruct U as (p & -> & -> & _). injection R as R1 R2. rewrite rev_app_distr in R1. cbn [rev app] in R1. destruct (rev p) as [|y r]; [destruct p; discriminate R1|].
        destruct (Byte.eqb y cr); [destruct (rev r); discriminate R1 | destruct p; discriminate R1].
      * destruct inp as [|x inp]; [discriminate R|]. injection R as _ <-. cbn [length] in *. lia.
    + cbn [length] in L. lia.
  - destruct (fields _ false line rest [] []) as [[r| |]|] eqn:F; try discriminate. exfalso. exact (fields_fuel (S (S (length line + length rest))) false line rest [] [] ltac:(lia) F).
Qed.
Lemma parse_line_total l : parse_line l <> None.
Proof.
  unfold parse_line. destruct (parse_row_fast _); try discriminate. unfold parse_row_slow, csv_record.
  pose proof (csv_read_fuel (S (length (trim_right l))) (trim_right l) ltac:(lia)) as F. destruct (csv_read _ _) as [[[[fs r]|]| |]|]; try discriminate; [|congruence]. destruct (columns fs); discriminate.
Qed.
Lemma parse_line_no_panic l : parse_line l <> Some Panic.
Proof.
  unfold parse_line. destruct (parse_row_fast _); try discriminate. unfold parse_row_slow. destruct (csv_record _) as [[[[fs r]|]| |]|]; try discriminate. destruct (columns fs); discriminate.
Qed.
(** The physical lines of a file. *)
Inductive lines : bytes -> list bytes -> Prop :=
| lines_end : lines [] []
| lines_last p : p <> [] -> ~ In nl p -> lines p [p]
| lines_cons p rest ls : ~ In nl p -> lines rest ls -> lines (p ++ nl :: rest) ((p ++ [nl]) :: ls).
Lemma read_file_lines fuel : forall inp, length inp < fuel -> exists ls rows e, lines inp ls /\ read_file fuel inp = Some (rows, e) /\
  map parse_line (firstn (length rows) ls) = map (fun r => Some (Ok r)) rows /\
  (if e then exists bad, nth_error ls (length rows) = Some bad /\ parse_line bad = Some Err else length rows = length ls).
Proof.
  induction fuel as [|fuel IH]; intros inp Hf; [lia|]. cbn [read_file]. pose proof (upto_nl_spec inp) as U. destruct (upto_nl inp) as [[line rest]|].
  - destruct U as (p & -> & -> & Hn). rewrite app_length in Hf. cbn [length] in Hf. destruct (IH rest ltac:(lia)) as (ls & rows & e & H1 & H2 & H3 & H4).
    pose proof (parse_line_total (p ++ [nl])) as T. pose proof (parse_line_no_panic (p ++ [nl])) as N. destruct (parse_line (p ++ [nl])) as [[row| |]|] eqn:P; [| |congruence|congruence].
    + rewrite H2. exists ((p ++ [nl]) :: ls), (row :: rows), e. split; [constructor; assumption|]. split; [reflexivity|]. cbn [length firstn map]. rewrite H3. split; [rewrite P; reflexivity|].
      destruct e; [exact H4 | cbn; congruence].
    + exists ((p ++ [nl]) :: ls), [], true. split; [constructor; assumption|]. split; [reflexivity|]. split; [reflexivity|]. exists (p ++ [nl]). auto.
  - destruct inp as [|x inp]; [exists [], [], false; repeat split; constructor|].
    pose proof (parse_line_total (x :: inp)) as T. pose proof (parse_line_no_panic (x :: inp)) as N. destruct (parse_line (x :: inp)) as [[row| |]|] eqn:P; [| |congruence|congruence].
    + exists [x :: inp], [row], false. split; [apply lines_last; [discriminate | exact U]|]. split; [reflexivity|]. cbn [length firstn map]. rewrite P. auto.
    + exists [x :: inp], [], true. split; [apply lines_last; [discriminate | exact U]|]. split; [reflexivity|]. split; [reflexivity|]. exists (x :: inp). auto.
Qed.
