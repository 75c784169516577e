(** File names: the journal and the estimate read the same indices; unique keys of the journal. *)
From Coq Require Import Permutation.
From Verif Require Import Base BaseLemmas UtilModel JournalModel JournalProofs ListModel ListProofs NamesModel.

(** ** Names with an extension *)
Definition data_ext (ext : bytes) : Prop := ext = dot_gz \/ ext = dot_csv.
Lemma strip_app ext p : strip_suffix ext (p ++ ext) = Some p.
Proof.
  induction p as [|c p IH]; cbn [app].
  - destruct ext; cbn [strip_suffix]; rewrite beqb_refl; reflexivity.
  - cbn [strip_suffix]. destruct (beqb (c :: p ++ ext) ext) eqn:E.
    + apply beqb_eq in E. apply (f_equal (@length byte)) in E. cbn [length] in E. rewrite app_length in E. lia.
    + rewrite IH. reflexivity.
Qed.
Lemma existsb_app_none p ext : existsb (Byte.eqb x2f) ext = false -> existsb (Byte.eqb x2f) (p ++ ext) = existsb (Byte.eqb x2f) p.
Proof. intros E. rewrite existsb_app, E. apply orb_false_r. Qed.
Lemma base_app ext p : existsb (Byte.eqb x2f) ext = false -> base_name (p ++ ext) = base_name p ++ ext.
Proof.
  intros E. induction p as [|c p IH]; cbn [app base_name].
  - destruct ext as [|c ext]; [reflexivity|]. cbn [base_name]. cbn [existsb] in E. apply orb_false_iff in E as [E1 E2]. rewrite E2.
    destruct (Byte.eqb c x2f) eqn:E3; [|reflexivity]. apply byte_eqb_eq in E3. subst c. discriminate E1.
  - rewrite existsb_app_none by exact E. destruct (existsb (Byte.eqb x2f) p); [exact IH|]. destruct (Byte.eqb c x2f); reflexivity.
Qed.
Lemma ext_no_slash ext : data_ext ext -> existsb (Byte.eqb x2f) ext = false.
Proof. intros [-> | ->]; reflexivity. Qed.
Lemma strip_none ext s : (forall p, s <> p ++ ext) -> strip_suffix ext s = None.
Proof.
  intros Hn. destruct (strip_suffix ext s) as [r|] eqn:E; [|reflexivity]. exfalso.
  assert (Hs : has_suffix ext s = true) by (unfold has_suffix; rewrite E; reflexivity). apply strip_suffix_iff in Hs as (p & Hp). exact (Hn p Hp).
Qed.
Lemma last_app_ne {A} (p q : list A) d : q <> [] -> last (p ++ q) d = last q d.
Proof.
  intros Hq. induction p as [|a p IH]; [reflexivity|]. cbn [app last]. destruct (p ++ q) eqn:E; [|exact IH].
  apply app_eq_nil in E as [_ E]. contradiction.
Qed.
Lemma parse_file_ext ext p : data_ext ext -> parse_file (p ++ ext) = parse_interval (base_name p).
Proof.
  intros He. unfold parse_file. rewrite base_app by (apply ext_no_slash; exact He). change [x2e; x67; x7a] with dot_gz. change [x2e; x63; x73; x76] with dot_csv.
  destruct He as [-> | ->].
  - rewrite strip_app. reflexivity.
  - rewrite (strip_none dot_gz), strip_app; [reflexivity|]. intros q E. apply (f_equal (fun l => last l x00)) in E.
    rewrite !last_app_ne in E by discriminate. discriminate.
Qed.
(** The expression of the estimate on a name with an extension *)
Lemma match_ext ext p a b : data_ext ext -> match_name (p ++ ext) = Some (a, b) <->
  p = a ++ x2d :: b /\ a <> [] /\ b <> [] /\ forallb is_digit a = true /\ forallb is_digit b = true.
Proof.
  intros He. split.
  - unfold match_name. destruct (digit_prefix (p ++ ext)) as [a' r] eqn:E1. apply digit_prefix_spec in E1 as [E1 Da]. destruct a' as [|a0 a']; [discriminate|].
    destruct r as [|c r1]; [discriminate|]. destruct (Byte.eqb c x2d) eqn:Ec; [|discriminate]. apply byte_eqb_eq in Ec. subst c.
    destruct (digit_prefix r1) as [b' r2] eqn:E2. apply digit_prefix_spec in E2 as [-> Db]. destruct b' as [|b0 b']; [discriminate|].
    destruct (match r2 with c2 :: r3 => negb (Byte.eqb c2 x0a) && is_tail r3 | [] => false end) eqn:E3.
    + intros E. injection E as <- <-. destruct r2 as [|c2 r3]; [discriminate|]. apply andb_true_iff in E3 as [_ E3]. unfold is_tail in E3. apply orb_true_iff in E3.
      assert (Hr : c2 :: r3 = ext).
      { assert (Hx : exists q, p ++ ext = q ++ c2 :: r3) by (exists ((a0 :: a') ++ x2d :: b0 :: b'); rewrite E1, <- app_assoc; reflexivity). destruct Hx as [q Hq].
        apply (f_equal (@rev byte)) in Hq. rewrite !rev_app_distr in Hq. destruct E3 as [E3|E3]; apply beqb_eq in E3; subst r3; destruct He as [-> | ->]; cbn in Hq; try discriminate Hq; injection Hq as <- _; reflexivity. }
      rewrite Hr in E1. assert (Hp : p = (a0 :: a') ++ x2d :: b0 :: b').
      { apply (app_inv_tail ext). rewrite E1. rewrite <- app_assoc. reflexivity. }
      split; [exact Hp|]. repeat split; try discriminate; assumption.
    + destruct (is_tail r2 && (2 <=? length (b0 :: b'))) eqn:E4; [|discriminate]. apply andb_true_iff in E4 as [E4 _]. exfalso.
      unfold is_tail in E4. apply orb_true_iff in E4.
      assert (Hx : p ++ ext = ((a0 :: a') ++ x2d :: b0 :: b') ++ r2) by (rewrite E1, <- app_assoc; reflexivity).
      assert (Hl : exists q d, (a0 :: a') ++ x2d :: b0 :: b' = q ++ [d] /\ is_digit d = true).
      { exists ((a0 :: a') ++ x2d :: removelast (b0 :: b')), (last (b0 :: b') x00). split.
        - rewrite <- app_assoc. cbn [app]. rewrite <- app_removelast_last by discriminate. reflexivity.
        - rewrite forallb_forall in Db. apply Db. rewrite (app_removelast_last x00 (l := b0 :: b')) at 2 by discriminate. apply in_or_app. right. left. reflexivity. }
      destruct Hl as (q & d & Hq & Dd). rewrite Hq in Hx. apply (f_equal (@rev byte)) in Hx. rewrite !rev_app_distr in Hx.
      destruct E4 as [E4|E4]; apply beqb_eq in E4; subst r2; destruct He as [-> | ->]; cbn in Hx; try discriminate Hx; injection Hx as <- _; discriminate Dd.
  - intros (-> & Ha & Hb & Da & Db). unfold match_name. rewrite <- app_assoc. cbn [app]. rewrite digit_prefix_app by (try exact Da; reflexivity).
    destruct a as [|a0 a]; [congruence|]. change (Byte.eqb x2d x2d) with true. cbv iota.
    rewrite digit_prefix_app by (try exact Db; destruct He as [-> | ->]; reflexivity). destruct b as [|b0 b]; [congruence|]. destruct He as [-> | ->]; reflexivity.
Qed.
Lemma names_agree ext p x y : data_ext ext -> (y < 2 ^ 63)%N -> indices (p ++ ext) = Some (x, y) <-> parse_file (p ++ ext) = Some (mk_iv x y).
Proof.
  intros He Hy. rewrite (parse_file_ext ext p He), parse_interval_iff. unfold indices. rewrite base_app by (apply ext_no_slash; exact He). cbn [iv_s iv_e]. split.
  - destruct (match_name (base_name p ++ ext)) as [[a b]|] eqn:E; [|discriminate]. apply match_ext in E as (Hp & Ha & Hb & Da & Db); [|exact He].
    destruct (N.ltb_spec (dec_value a) (2 ^ 63)); [|discriminate]. destruct (N.ltb_spec (dec_value b) (2 ^ 63)); [|discriminate].
    destruct (N.leb_spec (dec_value a) (dec_value b)); [|discriminate]. cbn [andb]. intros E. injection E as <- <-. exists a, b.
    split; [exact Hp|]. split; [exact Ha|]. split; [exact Hb|]. split; [|split; [reflexivity|split; [reflexivity|]]].
    + intros c Hc. rewrite forallb_forall in Da, Db. apply in_app_or in Hc as [Hc|Hc]; auto.
    + change (2 ^ 64)%N with (2 * 2 ^ 63)%N. lia.
  - intros (a & b & Hp & Ha & Hb & Hd & <- & <- & Hle & _). assert (E : match_name (base_name p ++ ext) = Some (a, b)).
    { apply match_ext; [exact He|]. split; [exact Hp|]. split; [exact Ha|]. split; [exact Hb|]. split; apply forallb_forall; intros c Hc; apply Hd, in_or_app; auto. }
    rewrite E. destruct (N.ltb_spec (dec_value a) (2 ^ 63)); [|lia]. destruct (N.ltb_spec (dec_value b) (2 ^ 63)); [|lia]. destruct (N.leb_spec (dec_value a) (dec_value b)); [reflexivity|lia].
Qed.
Lemma indices_bound f x y : indices f = Some (x, y) -> (x <= y < 2 ^ 63)%N.
Proof.
  unfold indices. destruct (match_name (base_name f)) as [[a b]|]; [|discriminate]. destruct (N.ltb_spec (dec_value a) (2 ^ 63)); [|discriminate].
  destruct (N.ltb_spec (dec_value b) (2 ^ 63)); [|discriminate]. destruct (N.leb_spec (dec_value a) (dec_value b)); [|discriminate]. cbn [andb]. intros E. injection E as <- <-. lia.
Qed.
Lemma estimate_ok f x y : indices f = Some (x, y) -> estimate f = Some (y - x + 1)%N.
Proof.
  intros E. unfold estimate. rewrite E. apply indices_bound in E. rewrite JournalIntervals.wrap64_id; [reflexivity|]. change (2 ^ 64)%N with (2 * 2 ^ 63)%N. lia.
Qed.
(** ** The total *)
Definition data_file (f : bytes) : Prop := exists p ext, f = p ++ ext /\ data_ext ext.
Definition small_file (f : bytes) : Prop := forall iv, parse_file f = Some iv -> (iv_e iv < 2 ^ 63)%N.
Definition rows_of (f : bytes) : Z := match parse_file f with Some iv => Z.of_N (iv_e iv) - Z.of_N (iv_s iv) + 1 | None => 0 end.
Lemma estimate_file f iv : data_file f -> parse_file f = Some iv -> estimate f = if (iv_e iv <? 2 ^ 63)%N then Some (iv_e iv - iv_s iv + 1)%N else None.
Proof.
  intros (p & ext & -> & He) Hp. destruct (N.ltb_spec (iv_e iv) (2 ^ 63)).
  - apply estimate_ok. apply (names_agree ext p); [exact He | assumption|]. rewrite Hp. destruct iv. reflexivity.
  - unfold estimate. destruct (indices (p ++ ext)) as [[x y]|] eqn:E; [|reflexivity]. exfalso. pose proof (indices_bound _ _ _ E) as Hb.
    apply (names_agree ext p) in E; [|exact He | lia]. rewrite Hp in E. injection E as ->. cbn [iv_e] in *. lia.
Qed.
Lemma int64_wrap_add x y : int64_wrap (x + int64_wrap y) = int64_wrap (x + y).
Proof. unfold int64_wrap. Z.to_euclidean_division_equations; lia. Qed.
Lemma int64_wrap_add_l x y : int64_wrap (int64_wrap x + y) = int64_wrap (x + y).
Proof. rewrite Z.add_comm, int64_wrap_add. f_equal. lia. Qed.
Lemma total_ok files : forall acc, Forall data_file files -> Forall (fun f => parse_file f <> None) files ->
  (Forall small_file files -> total_rows acc files = Some (match files with [] => acc | _ => int64_wrap (acc + fold_right (fun f n => rows_of f + n) 0 files)%Z end)) /\
  (Exists (fun f => ~ small_file f) files -> total_rows acc files = None).
Proof.
  induction files as [|f files IH]; intros acc Hd Hp.
  - split; [reflexivity|]. intros E. inversion E.
  - apply Forall_cons_iff in Hd as [Hd1 Hd2]. apply Forall_cons_iff in Hp as [Hp1 Hp2]. cbn [total_rows]. destruct (parse_file f) as [iv|] eqn:Ep; [|congruence].
    rewrite (estimate_file f iv Hd1 Ep). split.
    + intros Hs. apply Forall_cons_iff in Hs as [Hs1 Hs2]. pose proof (Hs1 iv Ep) as Hlt. destruct (N.ltb_spec (iv_e iv) (2 ^ 63)); [|lia].
      rewrite (proj1 (IH _ Hd2 Hp2) Hs2). f_equal. cbn [fold_right]. unfold rows_of at 2. rewrite Ep.
      apply parse_file_valid in Ep. destruct Ep as [Ep _]. replace (Z.of_N (iv_e iv - iv_s iv + 1)) with (Z.of_N (iv_e iv) - Z.of_N (iv_s iv) + 1)%Z by lia.
      rewrite int64_wrap_add. destruct files as [|g gs]; [cbn [fold_right]; f_equal; lia|]. rewrite int64_wrap_add_l. f_equal. lia.
    + intros Hx. destruct (N.ltb_spec (iv_e iv) (2 ^ 63)); [|reflexivity]. apply (proj2 (IH _ Hd2 Hp2)). apply Exists_cons in Hx as [Hx|Hx]; [|exact Hx].
      exfalso. apply Hx. intros iv' Ep'. rewrite Ep in Ep'. injection Ep' as <-. assumption.
Qed.
Lemma pending_in key files : forall c todo, pending_files key files c = Some todo -> Forall (fun f => In f files /\ parse_file f <> None) todo.
Proof.
  induction files as [|f files IH]; intros c todo; cbn [pending_files].
  - intros E. injection E as <-. constructor.
  - destruct (parse_file f) as [iv|] eqn:Ep; [|discriminate]. destruct (pending_files key files c) as [r|] eqn:Er; [|discriminate]. intros E.
    pose proof (IH c r Er) as Hr. assert (Hr' : Forall (fun g => In g (f :: files) /\ parse_file g <> None) r).
    { eapply Forall_impl; [|exact Hr]. intros g [H1 H2]. split; [right; exact H1 | exact H2]. }
    destruct (contains_completed c key iv); injection E as <-; [exact Hr'|]. constructor; [split; [left; reflexivity | congruence] | exact Hr'].
Qed.
Lemma counted_same ok key s go size files w : Forall data_file files ->
  (forall todo, pending_files key files (j_completed (last_job (mem (w_journal w)))) = Some todo -> Forall small_file todo) ->
  run_counted ok key s go size files w = run_ingest ok key s go size files w.
Proof.
  intros Hd Hs. unfold run_counted, run_ingest. destruct (st_ingest s); [|reflexivity].
  destruct (pending_files key files _) as [todo|] eqn:E; [|reflexivity]. pose proof (pending_in _ _ _ _ E) as Hp.
  rewrite (proj1 (total_ok todo 0 ltac:(rewrite Forall_forall in *; intros f Hf; apply Hd, Hp, Hf) ltac:(rewrite Forall_forall in *; intros f Hf; apply Hp, Hf)) (Hs todo eq_refl)). reflexivity.
Qed.
Lemma counted_stops ok key s go size files w todo : Forall data_file files -> st_ingest s = true ->
  pending_files key files (j_completed (last_job (mem (w_journal w)))) = Some todo -> Exists (fun f => ~ small_file f) todo ->
  run_counted ok key s go size files w = (mk_world (fst (write (ok (length (w_trace w))) (w_journal w))) (w_trace w), false).
Proof.
  intros Hd Hi E Hx. unfold run_counted. rewrite Hi, E. pose proof (pending_in _ _ _ _ E) as Hp.
  rewrite (proj2 (total_ok todo 0 ltac:(rewrite Forall_forall in *; intros f Hf; apply Hd, Hp, Hf) ltac:(rewrite Forall_forall in *; intros f Hf; apply Hp, Hf)) Hx). reflexivity.
Qed.
(** ** The listing contains only names with an extension *)
Section Sort.
  Variable pdq : list (bytes * N) -> list (bytes * N).
  Hypothesis Hpdq : forall l, Permutation (pdq l) l.
  Lemma glob_data ext d es f : data_ext ext -> In f (glob ext d es) -> data_file f.
  Proof.
    intros He Hf. apply glob_iff in Hf as (name & nd & _ & (p & ->) & ->). exists (join d p), ext. split; [|exact He]. unfold join. rewrite <- app_assoc. reflexivity.
  Qed.
  Lemma listed_data n : forall path f, In f (fst (list_files pdq path n)) \/ In f (snd (list_files pdq path n)) -> data_file f.
  Proof.
    induction n as [|es IH] using node_ind2.
    { intros path f [[]|[]]. }
    intros path f. cbn [list_files]. set (go := fix go (l : list (bytes * node)) (gz csv : list bytes) {struct l} := _).
    assert (Hgo : forall l gz csv, Forall (fun e => forall path f, In f (fst (list_files pdq path (snd e))) \/ In f (snd (list_files pdq path (snd e))) -> data_file f) l ->
      Forall data_file gz -> Forall data_file csv -> Forall data_file (fst (go l gz csv)) /\ Forall data_file (snd (go l gz csv))).
    { induction l as [|[name nd] l IHl]; intros gz csv Hl Hg Hc; [split; assumption|]. apply Forall_cons_iff in Hl as [H1 H2]. cbn [snd] in H1. cbn [go]. fold go.
      destruct nd as [|sub]; [apply IHl; assumption|]. destruct (beqb name bundled).
      - apply IHl; [exact H2 | |]; apply Forall_forall; intros g Hin; [exact (glob_data dot_gz _ _ _ (or_introl eq_refl) Hin) | exact (glob_data dot_csv _ _ _ (or_intror eq_refl) Hin)].
      - destruct (list_files pdq (join path name) (Dir sub)) as [g c] eqn:E. specialize (H1 (join path name)). rewrite E in H1. cbn [fst snd] in H1.
        apply IHl; [exact H2 | |]; apply Forall_app; split; try assumption; apply Forall_forall; intros x Hx; apply H1; auto. }
    destruct (Hgo es [] [] IH (Forall_nil _) (Forall_nil _)) as [G1 G2]. cbn [fst snd]. rewrite Forall_forall in G1, G2.
    intros [Hf|Hf]; apply (proj1 (sort_in pdq Hpdq _ _)) in Hf; [exact (G1 f Hf) | exact (G2 f Hf)].
  Qed.
End Sort.

(** ** The keys of every job are unique: the completed files of a directory are one entry *)
Definition unique {V} (m : list (bytes * V)) : Prop := NoDup (map fst m).
Lemma set_key_unique {V} k (v : V) m : unique m -> unique (set_key k v m).
Proof.
  unfold unique. induction m as [|[k' v'] m IH]; cbn [set_key map fst]; intros H; [repeat constructor; intros []|].
  inversion H as [|? ? H1 H2]; subst. destruct (beqb k k') eqn:E; cbn [map fst].
  - apply beqb_eq in E. subst k'. constructor; assumption.
  - constructor; [|exact (IH H2)]. intros Hin. apply in_map_iff in Hin as ((k2 & v2) & Hk & Hin). cbn [fst] in Hk. subst k2. apply In_set_key in Hin as [Hin|Hin].
    + injection Hin as <- <-. rewrite beqb_refl in E. discriminate.
    + apply H1. apply in_map_iff. exists (k', v2). auto.
Qed.
Definition jobs_unique (l : list job) : Prop := Forall (fun j => unique (j_completed j)) l.
Definition disk_unique (l : list disk_job) : Prop := Forall (fun d => unique (d_completed d)) l.
Definition journal_unique (j : journal) : Prop := jobs_unique (mem j) /\ disk_unique (disk j).
Lemma keys_map {V W} (f : bytes * V -> option (bytes * W)) m r : all_some (map f m) = Some r -> (forall kv kw, f kv = Some kw -> fst kw = fst kv) -> map fst r = map fst m.
Proof.
  intros E Hf. apply all_some_map in E. induction E as [|x y m r E1 E2 IH]; [reflexivity|]. cbn [map]. rewrite IH, (Hf x y E1). reflexivity.
Qed.
Lemma decode_keys d j : decode_job d = Some j -> map fst (j_completed j) = map fst (d_completed d).
Proof.
  unfold decode_job. destruct (decode_completed (d_completed d)) as [c|] eqn:E1; [|discriminate]. destruct (normalize_completed c) as [c'|] eqn:E2; [|discriminate].
  intros E. injection E as <-. cbn [j_completed]. unfold normalize_completed in E2. unfold decode_completed in E1.
  rewrite (keys_map _ _ _ E2), (keys_map _ _ _ E1); [reflexivity | |].
  - intros kv kw E. cbv beta in E. revert E. destruct (all_some (map parse_interval (snd kv))); [|discriminate]. intros E. injection E as <-. reflexivity.
  - intros [k l] kw E. cbn [fst snd] in E |- *. destruct k as [|c0 k]; [discriminate|]. destruct (forallb _ _) in E; [|discriminate]. injection E as <-. reflexivity.
Qed.
Lemma encode_unique l : jobs_unique l -> disk_unique (map encode_job l).
Proof.
  intros H. unfold disk_unique. rewrite Forall_map. eapply Forall_impl; [|exact H]. intros j Hj. unfold unique, encode_job in *. cbn [d_completed]. rewrite map_map. cbn [fst]. exact Hj.
Qed.
Lemma write_unique ok j : journal_unique j -> journal_unique (fst (write ok j)).
Proof. intros [H1 H2]. unfold write. destruct ok; cbn [fst]; split; cbn [mem disk]; try assumption. apply encode_unique. exact H1. Qed.
Lemma last_unique l : jobs_unique l -> unique (j_completed (last_job l)).
Proof.
  intros H. unfold last_job. destruct l as [|j l]; [constructor|]. unfold jobs_unique in H; rewrite Forall_forall in H. apply H.
  rewrite (app_removelast_last (mk_job false false 0 []) (l := j :: l)) at 2 by discriminate. apply in_or_app. right. left. reflexivity.
Qed.
Lemma open_unique ok d j b : disk_unique d -> open_journal ok d = Some (j, b) -> journal_unique j.
Proof.
  intros H. unfold open_journal. destruct (all_some (map decode_job d)) as [jobs|] eqn:E; [|discriminate]. intros E2.
  assert (Hj : jobs_unique jobs).
  { clear E2. apply all_some_map in E. induction E as [|x y d jobs E1 E3 IH]; [constructor|]. apply Forall_cons_iff in H as [Hx Hd]. constructor; [|exact (IH Hd)].
    unfold unique. rewrite (decode_keys x y E1). exact Hx. }
  apply (f_equal (fun o => match o with Some (j, _) => j | None => j end)) in E2. rewrite (surjective_pairing (write _ _)) in E2. subst j.
  apply write_unique. split; [|exact H]. cbn [mem]. apply Forall_app. split; [exact Hj | constructor; [apply last_unique; exact Hj | constructor]].
Qed.
Lemma set_last_unique l j : jobs_unique l -> unique (j_completed j) -> jobs_unique (set_last l j).
Proof.
  intros H Hj. apply Forall_app. split; [|constructor; [exact Hj | constructor]]. unfold jobs_unique in H. rewrite Forall_forall in *. intros x Hx. apply H. clear -Hx.
  induction l as [|a l IH]; [destruct Hx|]. destruct l as [|b l]; [destruct Hx|]. cbn [removelast] in Hx. destruct Hx as [<-|Hx]; [left; reflexivity | right; exact (IH Hx)].
Qed.
Lemma add_files_unique key files : forall c c' good, unique c -> add_files key files c = (c', good) -> unique c'.
Proof.
  induction files as [|f files IH]; intros c c' good H; cbn [add_files]; [intros E; injection E as <- <-; exact H|].
  destruct (parse_file f); [|intros E; injection E as <- <-; exact H]. apply IH. apply set_key_unique. exact H.
Qed.
Lemma commit_unique ok key files co sm j : journal_unique j -> journal_unique (fst (commit_progress ok key files co sm j)).
Proof.
  intros H. unfold commit_progress. destruct (mem j) as [|j0 js] eqn:Em; [exact H|]. rewrite <- Em. destruct H as [H1 H2].
  destruct (add_files key files (j_completed (last_job (mem j)))) as [c good] eqn:E. pose proof (add_files_unique _ _ _ _ _ (last_unique _ H1) E) as Hc.
  destruct good; [apply write_unique|]; split; cbn [mem disk fst]; try exact H2; apply set_last_unique; try exact H1; exact Hc.
Qed.
Lemma ct_unique ok size j : journal_unique j -> journal_unique (fst (commit_ct_size ok size j)).
Proof.
  intros H. unfold commit_ct_size. destruct (mem j) as [|j0 js] eqn:Em; [exact H|]. rewrite <- Em. destruct H as [H1 H2].
  apply write_unique. split; cbn [mem disk]; [|exact H2]. apply set_last_unique; [exact H1 | exact (last_unique _ H1)].
Qed.
Lemma loop_inv {St} (P : St -> Prop) go each size files : (forall st b, P st -> P (fst (each st b))) -> forall fuel i st, P st -> P (fst (batch_loop go each fuel size files i st)).
Proof.
  intros He. induction fuel as [|fuel IH]; intros i st H; cbn [batch_loop]; [exact H|]. destruct (i <? length files); [|exact H]. destruct (go (i / size + 1)); [|exact H].
  pose proof (He st (firstn size (skipn i files)) H) as H2. destruct (each st (firstn size (skipn i files))) as [st' b]. cbn [fst] in H2. destruct b; [apply IH; exact H2 | exact H2].
Qed.
Section RunUnique.
  Variable ok : nat -> bool.
  Variable key : bytes.
  Definition world_unique (w : world) : Prop := journal_unique (w_journal w).
  Lemma then_unique x f : world_unique (fst x) -> (forall w, world_unique w -> world_unique (fst (f w))) -> world_unique (fst (andThen x f)).
  Proof. intros H Hf. destruct x as [w b]. unfold andThen. destruct b; [apply Hf|]; exact H. Qed.
  Lemma act_unique a w : world_unique w -> world_unique (fst (act ok a w)).
  Proof. exact (fun H => H). Qed.
  Lemma commit_w_unique files co sm w : world_unique w -> world_unique (fst (commit ok key files co sm w)).
  Proof.
    intros H. unfold commit. pose proof (commit_unique (ok (length (w_trace w))) key files co sm (w_journal w) H) as H2.
    destruct (commit_progress _ _ _ _ _ _) as [j r]. exact H2.
  Qed.
  Lemma when_unique b f w : (forall w, world_unique w -> world_unique (fst (f w))) -> world_unique w -> world_unique (fst (when b f w)).
  Proof. intros Hf H. unfold when. destruct b; [apply Hf|]; exact H. Qed.
  Lemma run_unique s go size files w : world_unique w -> world_unique (fst (run_ingest ok key s go size files w)).
  Proof.
    intros H. unfold run_ingest. set (r := if st_ingest s then _ else _). assert (Hr : world_unique (fst r)).
    { subst r. destruct (st_ingest s).
      - destruct (pending_files _ _ _) as [todo|]; [|exact H]. unfold ingest_in_batches. destruct todo as [|f fs]; [exact H|]. apply loop_inv; [|exact H].
        intros st b Hst. unfold run_batch. repeat (apply then_unique; [try (apply when_unique; [intros|]); auto using act_unique | intros]). apply commit_w_unique. assumption.
      - unfold run_no_ingest. apply then_unique; [apply when_unique; [|exact H] | intros; apply when_unique; [|assumption]]; intros; (apply then_unique; [apply act_unique; assumption | intros; apply commit_w_unique; assumption]). }
    destruct r as [w1 b]. exact (write_unique _ _ Hr).
  Qed.
End RunUnique.
Lemma exec_unique c p : disk_unique (p_disk p) -> disk_unique (p_disk (exec c p)).
Proof.
  intros H. destruct c as [oo ok key s go size files | oo ro co cl key]; cbn [exec].
  - destruct (open_journal oo (p_disk p)) as [[j b]|] eqn:E; [|exact H]. apply open_unique in E; [|exact H]. destruct b; [|exact (proj2 E)].
    pose proof (run_unique ok key s go size files (mk_world j []) E) as H2. destruct (run_ingest _ _ _ _ _ _ _) as [w r]. exact (proj2 H2).
  - destruct (open_journal oo (p_disk p)) as [[j b]|] eqn:E; [|exact H]. apply open_unique in E; [|exact H]. destruct b; [|exact (proj2 E)].
    cbn [p_disk]. apply write_unique. destruct (completed_ct_size _ _); [destruct ro; [apply ct_unique|]|]; exact E.
Qed.
Lemma exec_all_unique cs : forall p, disk_unique (p_disk p) -> disk_unique (p_disk (exec_all cs p)).
Proof. induction cs as [|c cs IH]; intros p H; [exact H|]. cbn [exec_all fold_left]. apply IH, exec_unique, H. Qed.
