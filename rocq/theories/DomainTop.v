(** The lemmas behind the theorems about domain names. *)
From Verif Require Import Base BaseLemmas TrieModel TrieSpec TrieMaps TrieHash TrieStore TrieBatch TrieUpdate TrieCodec TrieRead TrieSound TrieHistory TrieTop ClientModel DomainModel DomainSpec DomainProofs.

Lemma NoDup_map_in {A B} (f : A -> B) l : (forall x y, In x l -> In y l -> f x = f y -> x = y) -> NoDup l -> NoDup (map f l).
Proof.
  intros Hf Hn. induction Hn as [|x l Hx Hn IH]; cbn; constructor.
  - intros X. apply in_map_iff in X as (y & E & Hy). apply Hx. rewrite <- (Hf y x); [exact Hy | right; exact Hy | left; reflexivity | exact E].
  - apply IH. intros y z Hy Hz. apply Hf; right; assumption.
Qed.

Section Psl.
  Variable psl : bytes -> bytes * bool.

  Lemma is_valid_iff d : is_valid psl d = true <-> host_name d /\ psl d <> (d, true).
  Proof.
    unfold is_valid. rewrite !andb_true_iff, negb_true_iff, Nat.leb_le. split.
    - intros (((Hv & Hl) & Hp) & Hf). destruct (proj1 (syntax_ok d) (conj Hv Hf)) as (ls & (Hne & Hc) & Hd). split.
      + split; [exact Hl|]. exists ls. auto.
      + intros E. rewrite E in Hp. cbn in Hp. rewrite beqb_refl in Hp. discriminate Hp.
    - intros [[Hl (ls & Hne & Hc & Hd)] Hp]. destruct (proj2 (syntax_ok d) ltac:(exists ls; repeat split; auto)) as [Hv Hf].
      repeat split; auto. destruct (psl d) as [t i] eqn:E. cbn. destruct i; [|reflexivity]. destruct (beqb_spec t d) as [->|]; [congruence | reflexivity].
  Qed.

  Lemma asks_strip pre ls : clean ls -> asks pre ls -> strip (join (pre ++ ls)) = join ls.
  Proof.
    intros Hc Ha. assert (Hw : host_label www_label).
    { unfold host_label, www_label. cbn. split; [lia|]. split; [intros c [<-|[<-|[<-|[]]]]; left; vm_compute; reflexivity|]. split; discriminate. }
    assert (Hcw : clean (www_label :: ls)) by (destruct Hc; split; [discriminate | constructor; assumption]).
    assert (Hsw : strip_labels (www_label :: ls) = ls) by (destruct Hc as [Hne _]; destruct ls; [congruence | reflexivity]).
    destruct Ha as [[->| ->]|[[->| ->] Hn]].
    - cbn [app]. rewrite (strip_clean _ (www_label :: ls) Hcw (or_introl eq_refl)), Hsw. reflexivity.
    - cbn [app]. rewrite (strip_clean _ (www_label :: ls) Hcw); [rewrite Hsw; reflexivity|]. right. rewrite (join_cons [star] (www_label :: ls) ltac:(discriminate)). reflexivity.
    - cbn [app]. rewrite (strip_clean _ ls Hc (or_introl eq_refl)). f_equal. destruct ls as [|l [|l2 r]]; try reflexivity.
      cbn. destruct (beqb_spec l www_label) as [->|]; [specialize (Hn _ eq_refl); discriminate Hn | reflexivity].
    - cbn [app]. rewrite (strip_clean _ ls Hc).
      + f_equal. destruct ls as [|l [|l2 r]]; try reflexivity.
        cbn. destruct (beqb_spec l www_label) as [->|]; [specialize (Hn _ eq_refl); discriminate Hn | reflexivity].
      + right. destruct Hc as [Hne _]. rewrite (join_cons [star] ls Hne). reflexivity.
  Qed.
  Lemma asks_host pre ls : clean ls -> asks pre ls -> length (join (pre ++ ls)) <= 255 -> host_name (join (pre ++ ls)).
  Proof.
    intros [Hne Hf] Ha Hl. split; [exact Hl|].
    assert (Hw : host_label www_label).
    { unfold host_label, www_label. cbn. split; [lia|]. split; [intros c [<-|[<-|[<-|[]]]]; left; vm_compute; reflexivity|]. split; discriminate. }
    destruct Ha as [[->| ->]|[[->| ->] _]]; cbn [app].
    - exists (www_label :: ls). split; [discriminate|]. split; [constructor; assumption | left; reflexivity].
    - exists (www_label :: ls). split; [discriminate|]. split; [constructor; assumption | right]. rewrite (join_cons [star] (www_label :: ls) ltac:(discriminate)). reflexivity.
    - exists ls. auto.
    - exists ls. split; [exact Hne|]. split; [exact Hf|]. right. rewrite (join_cons [star] ls Hne). reflexivity.
  Qed.
  (** Every valid name is of this form. *)
  Lemma host_asks d : host_name d -> exists pre ls, clean ls /\ asks pre ls /\ d = join (pre ++ ls).
  Proof.
    intros [_ (ls & Hne & Hf & Hd)].
    assert (G : exists p r, clean r /\ ls = p ++ r /\ (p = [www_label] \/ (p = [] /\ forall r', r = www_label :: r' -> r' = []))).
    { destruct ls as [|l r]; [congruence|]. destruct r as [|l2 r].
      - exists [], [l]. split; [split; [discriminate | exact Hf]|]. split; [reflexivity|]. right. split; [reflexivity|]. intros r' E. inversion E. reflexivity.
      - destruct (beqb_spec l www_label) as [->|Hn].
        + exists [www_label], (l2 :: r). inversion Hf; subst. split; [split; [discriminate | assumption]|]. auto.
        + exists [], (l :: l2 :: r). split; [split; [discriminate | exact Hf]|]. split; [reflexivity|]. right. split; [reflexivity|]. intros r' E. inversion E. congruence. }
    destruct G as (p & r & Hr & -> & Hp). destruct Hd as [->| ->].
    - exists p, r. split; [exact Hr|]. split; [|reflexivity]. unfold asks. tauto.
    - exists ([star] :: p), r. split; [exact Hr|]. split.
      + unfold asks. destruct Hp as [->|[-> Hp]]; auto.
      + cbn [app]. rewrite (join_cons [star] (p ++ r)); [reflexivity|]. destruct Hr. destruct p; cbn; [assumption | discriminate].
  Qed.

  Lemma parse_asks pre ls k : clean ls -> asks pre ls -> length (join (pre ++ ls)) <= 255 -> psl (join (pre ++ ls)) <> (join (pre ++ ls), true) ->
    psl (join ls) = (join (lastn k ls), true) -> 1 <= k <= length ls ->
    parse_domain_name psl (join (pre ++ ls)) = if k <? length ls then Some (parents k ls) else None.
  Proof.
    intros Hc Ha Hl Hp E Hk. unfold parse_domain_name. rewrite (proj2 (is_valid_iff (join (pre ++ ls))) (conj (asks_host pre ls Hc Ha Hl) Hp)).
    rewrite (asks_strip pre ls Hc Ha). rewrite (split_spec psl ls k Hc Hk (f_equal fst E) (f_equal snd E)).
    destruct (Nat.ltb_spec k (length ls)) as [Hlt|]; [|reflexivity]. exact (parse_icann ls k Hc (conj (proj1 Hk) Hlt)).
  Qed.
  Lemma parse_private pre ls : clean ls -> asks pre ls -> length (join (pre ++ ls)) <= 255 -> psl (join (pre ++ ls)) <> (join (pre ++ ls), true) ->
    snd (psl (join ls)) = false -> parse_domain_name psl (join (pre ++ ls)) = Some [join ls].
  Proof.
    intros Hc Ha Hl Hp E. unfold parse_domain_name. rewrite (proj2 (is_valid_iff (join (pre ++ ls))) (conj (asks_host pre ls Hc Ha Hl) Hp)).
    rewrite (asks_strip pre ls Hc Ha). unfold split_e2ld. rewrite E. reflexivity.
  Qed.

  Lemma lastn_length {A} j (l : list A) : j <= length l -> length (lastn j l) = j.
  Proof. intros H. unfold lastn. rewrite skipn_length. lia. Qed.
  Lemma lastn_all {A} (l : list A) : lastn (length l) l = l.
  Proof. unfold lastn. rewrite Nat.sub_diag. reflexivity. Qed.
  Lemma lastn_clean j ls : clean ls -> 1 <= j <= length ls -> clean (lastn j ls).
  Proof.
    intros [Hne Hf] Hj. split; [|apply Forall_skipn; exact Hf]. intros E. apply (f_equal (@length bytes)) in E. rewrite lastn_length in E by lia. cbn in E. lia.
  Qed.
  Lemma clean_join_inj a b : clean a -> clean b -> join a = join b -> a = b.
  Proof. intros [Ha Fa] [Hb Fb]. apply join_inj; auto using clean_no_dot. Qed.
  Lemma parents_nodup k ls : clean ls -> NoDup (parents k ls).
  Proof.
    intros Hc. unfold parents. apply NoDup_map_in; [|apply seq_NoDup].
    intros i j Hi Hj E. apply in_seq in Hi. apply in_seq in Hj. apply clean_join_inj in E; [|apply lastn_clean; [exact Hc | lia]..].
    apply (f_equal (@length bytes)) in E. rewrite !lastn_length in E by lia. exact E.
  Qed.
  Lemma parents_in k ls p : In p (parents k ls) <-> exists j, k < j <= length ls /\ p = join (lastn j ls).
  Proof.
    unfold parents. rewrite in_map_iff. split.
    - intros (j & E & Hj). apply in_seq in Hj. exists j. split; [lia | congruence].
    - intros (j & Hj & ->). exists j. split; [reflexivity|]. apply in_seq. lia.
  Qed.
  Lemma parents_last k ls : k < length ls -> exists init, parents k ls = init ++ [join ls].
  Proof.
    intros Hk. unfold parents. replace (length ls - k) with (S (length ls - k - 1)) by lia. rewrite seq_S, map_app. cbn [map].
    eexists. f_equal. f_equal. f_equal. replace (S k + (length ls - k - 1)) with (length ls) by lia. apply lastn_all.
  Qed.

  (** Every name in the answer ends the name that was asked, and has no wildcard. *)
  Lemma parse_whole d parts : whole_labels psl -> parse_domain_name psl d = Some parts ->
    exists pre ls, clean ls /\ asks pre ls /\ d = join (pre ++ ls) /\ In (join ls) parts /\ forall p, In p parts -> exists j, 1 <= j <= length ls /\ p = join (lastn j ls).
  Proof.
    intros Hw Hp. assert (Hv : is_valid psl d = true) by (unfold parse_domain_name in Hp; destruct (is_valid psl d); [reflexivity | discriminate Hp]).
    apply is_valid_iff in Hv as [Hh Hn]. pose proof (proj1 Hh) as Hlen. destruct (host_asks d Hh) as (pre & ls & Hc & Ha & ->).
    exists pre, ls. split; [exact Hc|]. split; [exact Ha|]. split; [reflexivity|].
    pose proof Hc as [Hne Hf].
    destruct (psl (join ls)) as [t i] eqn:E. destruct i.
    - destruct (Hw (join ls)) as (k & Hk & Ek). unfold upper in Ek. rewrite (labels_join ls Hne (clean_no_dot ls Hf)) in *. rewrite E in Ek. cbn in Ek. subst t.
      rewrite (parse_asks pre ls k Hc Ha Hlen Hn E Hk) in Hp. destruct (Nat.ltb_spec k (length ls)) as [Hlt|]; [|discriminate Hp]. injection Hp as <-. split.
      + apply parents_in. exists (length ls). rewrite lastn_all. split; [lia | reflexivity].
      + intros p Hp. apply parents_in in Hp as (j & Hj & ->). exists j. split; [lia | reflexivity].
    - rewrite (parse_private pre ls Hc Ha Hlen Hn (f_equal snd E)) in Hp. injection Hp as <-. split; [left; reflexivity|].
      intros p [<-|[]]. exists (length ls). rewrite lastn_all. split; [|reflexivity]. destruct ls; [congruence|]. cbn. lia.
  Qed.
  Lemma parse_no_star d parts p : whole_labels psl -> parse_domain_name psl d = Some parts -> In p parts -> ~ In star p.
  Proof.
    intros Hw Hp Hin. destruct (parse_whole d parts Hw Hp) as (pre & ls & Hc & _ & _ & _ & Hall). destruct (Hall p Hin) as (j & Hj & ->).
    intros X. apply in_join in X as [X|(l & X & Y)]; [discriminate X|]. destruct (lastn_clean j ls Hc Hj) as [_ Hf]. rewrite Forall_forall in Hf. exact (host_no_star l (Hf l X) Y).
  Qed.
  Lemma join_length_app (a b : list bytes) : a <> [] -> b <> [] -> length (join b) < length (join (a ++ b)).
  Proof. intros Ha Hb. rewrite (join_app a b Ha Hb), app_length. cbn. lia. Qed.
  Lemma join_lastn_le j (ls : list bytes) : 1 <= j <= length ls -> length (join (lastn j ls)) <= length (join ls).
  Proof.
    intros Hj. destruct (Nat.eq_dec j (length ls)) as [->|Hn]; [rewrite lastn_all; lia|]. unfold lastn.
    rewrite <- (firstn_skipn (length ls - j) ls) at 3. apply Nat.lt_le_incl. apply join_length_app; [|apply skipn_ne; lia].
    apply firstn_ne; [lia|]. destruct ls; [cbn in Hj; lia | discriminate].
  Qed.
  (** A name with a wildcard or www in front is not in the answer to the question for that name. *)
  Lemma parse_stripped pre ls parts : whole_labels psl -> clean ls -> asks pre ls -> pre <> [] ->
    parse_domain_name psl (join (pre ++ ls)) = Some parts -> ~ In (join (pre ++ ls)) parts.
  Proof.
    intros Hw Hc Ha Hpre Hp Hin. pose proof (asks_strip pre ls Hc Ha) as Hs.
    destruct (parse_whole _ parts Hw Hp) as (pre2 & ls2 & Hc2 & Ha2 & E & _ & Hall). pose proof (asks_strip pre2 ls2 Hc2 Ha2) as Hs2.
    rewrite <- E, Hs in Hs2. apply clean_join_inj in Hs2; [|assumption..]. subst ls2.
    destruct (Hall _ Hin) as (j & Hj & Ej). pose proof (join_lastn_le j ls Hj) as L1. rewrite <- Ej in L1.
    pose proof (join_length_app pre ls Hpre (proj1 Hc)). lia.
  Qed.
End Psl.

(** ** Rules *)
Lemma is_prefix_length a b : is_prefix a b = true -> length a <= length b.
Proof. revert b. induction a as [|x a IH]; intros [|y b] H; cbn in *; try lia; try discriminate H. apply andb_true_iff in H as [_ H]. apply IH in H. lia. Qed.
Lemma rule_match_le ls r k ex ic : rule_match ls r = Some (k, ex, ic) -> k <= length ls.
Proof.
  destruct r as [[name kind] icann]. unfold rule_match. destruct (is_prefix (rev name) (rev ls)) eqn:E; [|discriminate].
  apply is_prefix_length in E. rewrite !rev_length in E. destruct kind.
  - intros X. injection X as <- _ _. exact E.
  - destruct (Nat.ltb_spec (length name) (length ls)); [|discriminate]. intros X. injection X as <- _ _. lia.
  - intros X. injection X as <- _ _. lia.
Qed.
Lemma prevailing_le ls rules best : fst (fst best) <= length ls -> fst (fst (prevailing ls rules best)) <= length ls.
Proof.
  revert best. induction rules as [|r rules IH]; intros best Hb; [exact Hb|]. cbn [prevailing]. apply IH.
  destruct (rule_match ls r) as [[[k ex] ic]|] eqn:E; [|exact Hb]. destruct best as [[k0 ex0] ic0].
  destruct ((ex && negb ex0) || (Bool.eqb ex ex0 && (k0 <=? k))); [exact (rule_match_le ls r k ex ic E) | exact Hb].
Qed.
Lemma rules_whole rules : whole_labels (rules_psl rules).
Proof.
  intros d. unfold rules_psl. pose proof (prevailing_le (labels d) rules (1, false, false)) as Hp.
  destruct (prevailing (labels d) rules (1, false, false)) as [[k ex] ic] eqn:E.
  assert (Hl : 1 <= length (labels d)) by (pose proof (labels_ne d); destruct (labels d); [congruence | cbn; lia]).
  cbn in Hp. specialize (Hp Hl). exists (Nat.max 1 k). split; [lia | reflexivity].
Qed.

(** ** Answers *)
Section Answers.
  Variable H : bytes -> bytes.
  Hypothesis Hlen : forall x, length (H x) = HashLength.
  Variable limit : nat.
  Variable G : bytes -> Prop.
  Hypothesis Hcf : collision_free H G.

  Lemma entry_name payload root name s r s' : get_proof_part H payload limit root name s = (Ok r, s') ->
    exists v, entry r = Some (mk_entry name (H name) v) /\ (proof_type (the_poi r) <> PoP -> v = repeat x00 HashLength).
  Proof.
    unfold get_proof_part, bind. destruct (trie_merkle_proof limit root (H name) s) as [[[[[ap inc] pk] pv]| |] s1]; try discriminate.
    cbn. intros E. injection E as <- _. cbn. eexists. split; [reflexivity|]. destruct inc; [congruence | reflexivity].
  Qed.

  Lemma part_answers payload m s name : represents H G m s -> (forall v, lookup m (H name) = Some v -> payload (H name) = v) ->
    runs (get_proof_part H payload limit (root_of H m) name) s (fun r s' => answers H m name r /\ represents H G m s').
  Proof.
    intros Hr Hp. destruct (client_honest H Hlen limit G Hcf payload m s name Hr Hp) as (r & s' & Hg & Hq & Hr').
    exists r, s'. split; [exact Hg|]. split; [|exact Hr']. unfold answers. destruct (lookup m (H name)) as [v|]; [exact Hq|].
    destruct (entry_name _ _ _ _ _ _ Hg) as (v & He & Hv). split; [|exact Hq]. rewrite He, Hv; [reflexivity|].
    intros X. unfold verify_proof_by_domain in Hq. rewrite He, X in Hq. cbn in Hq. destruct (beqb v _); [|discriminate Hq].
    destruct (verify_inclusion _ _ _ _ _); discriminate Hq.
  Qed.
  Lemma proofs_answer payload m names s : represents H G m s -> (forall n v, lookup m (H n) = Some v -> payload (H n) = v) ->
    runs (get_proofs H payload limit (root_of H m) names) s (fun rs s' => Forall2 (answers H m) names rs /\ represents H G m s').
  Proof.
    intros Hr Hp. revert s Hr. induction names as [|n names IH]; intros s Hr; cbn [get_proofs].
    - apply runs_ret. split; [constructor | exact Hr].
    - apply runs_bind. eapply runs_mono; [|apply part_answers; [exact Hr | apply Hp]]. cbv beta. intros r s' [Ha Hr'].
      apply runs_bind. eapply runs_mono; [|apply IH; exact Hr']. cbv beta. intros rs s2 [Hrs Hr2]. apply runs_ret. split; [constructor; assumption | exact Hr2].
  Qed.
End Answers.

(** ** Stored names *)
Lemma add_name_spec n l : NoDup l -> NoDup (add_name n l) /\ forall x, In x (add_name n l) <-> x = n \/ In x l.
Proof.
  intros Hl. unfold add_name. destruct (existsb (beqb n) l) eqn:E.
  - apply existsb_exists in E as (y & Hy & Ey). apply beqb_eq in Ey. subst y. split; [exact Hl|]. intros x. split; [auto|]. intros [->|]; assumption.
  - assert (Hn : ~ In n l). { intros X. rewrite (proj2 (existsb_exists _ l)) in E; [discriminate E|]. exists n. split; [exact X | apply beqb_refl]. }
    split.
    + apply NoDup_rev in Hl. rewrite <- (rev_involutive (l ++ [n])). apply NoDup_rev. rewrite rev_app_distr. cbn. constructor; [rewrite <- in_rev; exact Hn | exact Hl].
    + intros x. rewrite in_app_iff. cbn. intuition congruence.
Qed.
Lemma cert_domains_spec cn dns : NoDup (cert_domains cn dns) /\ forall n, In n (cert_domains cn dns) <-> In n dns \/ (cn <> [] /\ n = cn).
Proof.
  unfold cert_domains. set (init := match cn with [] => [] | _ => [cn] end).
  assert (Hi : NoDup init /\ forall n, In n init <-> cn <> [] /\ n = cn).
  { destruct cn as [|c cn]; subst init; split.
    - constructor.
    - intros n. split; [intros [] | intros [X _]; congruence].
    - constructor; [intros [] | constructor].
    - intros n. cbn. split; [intros [<-|[]]; split; [discriminate | reflexivity] | intros [_ ->]; auto]. }
  assert (G : forall dns l, NoDup l -> NoDup (fold_left (fun l n => add_name n l) dns l) /\ forall n, In n (fold_left (fun l n => add_name n l) dns l) <-> In n dns \/ In n l).
  { clear. induction dns as [|d dns IH]; intros l Hl; [split; [exact Hl | intros n; cbn; tauto]|]. cbn [fold_left].
    destruct (add_name_spec d l Hl) as [Hn Hx]. destruct (IH (add_name d l) Hn) as [H1 H2]. split; [exact H1|].
    intros n. rewrite H2, Hx. cbn. intuition congruence. }
  destruct Hi as [H1 H2]. destruct (G dns init H1) as [H3 H4]. split; [exact H3|]. intros n. rewrite H4, H2. reflexivity.
Qed.

Lemma host_labels_b ls : forallb (fun l => label_ok l && negb (beqb l [star])) ls = true -> Forall host_label ls.
Proof.
  rewrite forallb_forall, Forall_forall. intros Hf l Hl. specialize (Hf l Hl). apply andb_true_iff in Hf as [H1 H2].
  apply label_ok_host in H1 as [->|H1]; [discriminate H2 | exact H1].
Qed.
