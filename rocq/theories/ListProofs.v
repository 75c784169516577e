(** Directory listing: complete when no subdirectory comes before a sibling "bundled". *)
From Coq Require Import Permutation Sorted.
From Verif Require Import Base BaseLemmas UtilModel JournalModel JournalProofs ListModel.

(** Specification: the paths of data files in a tree. *)
Inductive gz_path : bytes -> node -> bytes -> Prop :=
| gz_here path es sub name nd : In (bundled, Dir sub) es -> In (name, nd) sub -> (exists p, name = p ++ dot_gz) ->
    gz_path path (Dir es) (join (join path bundled) name)
| gz_below path es d nd f : In (d, nd) es -> is_dir nd = true -> d <> bundled -> gz_path (join path d) nd f -> gz_path path (Dir es) f.
Inductive csv_path : bytes -> node -> bytes -> Prop :=
| csv_here path es sub name nd : In (bundled, Dir sub) es -> In (name, nd) es -> (exists p, name = p ++ dot_csv) ->
    csv_path path (Dir es) (join path name)
| csv_below path es d nd f : In (d, nd) es -> is_dir nd = true -> d <> bundled -> csv_path (join path d) nd f -> csv_path path (Dir es) f.
(** No subdirectory is listed before a sibling "bundled", at any depth; names are unique. *)
Inductive tidy : node -> Prop :=
| tidy_file : tidy File
| tidy_dir es : NoDup (map fst es) -> Forall (fun e => tidy (snd e)) es ->
    (forall p sub q, es = p ++ (bundled, Dir sub) :: q -> Forall (fun e => is_dir (snd e) = false) p) -> tidy (Dir es).

Lemma strip_suffix_iff ext s : has_suffix ext s = true <-> exists p, s = p ++ ext.
Proof.
  unfold has_suffix. split.
  - intros Hq. destruct (strip_suffix ext s) as [r|] eqn:Hs; [clear Hq | discriminate]. exists r. revert r Hs.
    induction s as [|c s IH]; intros r; cbn [strip_suffix].
    + destruct (beqb [] ext) eqn:Hb; [|discriminate]. intros [= <-]. apply beqb_eq in Hb. exact Hb.
    + destruct (beqb (c :: s) ext) eqn:Hb; [intros [= <-]; apply beqb_eq in Hb; exact Hb|].
      destruct (strip_suffix ext s) as [r'|]; [|discriminate]. intros [= <-]. rewrite (IH r' eq_refl). reflexivity.
  - intros (p & ->). destruct (strip_suffix ext (p ++ ext)) eqn:Hs; [reflexivity|]. exfalso. revert Hs.
    induction p as [|c p IH]; cbn [app].
    + destruct ext; cbn [strip_suffix]; rewrite beqb_refl; discriminate.
    + cbn [strip_suffix]. destruct (beqb (c :: p ++ ext) ext); [discriminate|]. destruct (strip_suffix ext (p ++ ext)); [discriminate|]. intros _. apply IH. reflexivity.
Qed.
Lemma glob_iff ext d es f : In f (glob ext d es) <-> exists name nd, In (name, nd) es /\ (exists p, name = p ++ ext) /\ f = join d name.
Proof.
  unfold glob. rewrite in_map_iff. split.
  - intros (name & <- & Hn). apply filter_In in Hn as [Hn Hs]. apply in_map_iff in Hn as ((nm & nd) & Hq & Hn). cbn in Hq. subst nm.
    apply strip_suffix_iff in Hs. eauto 8.
  - intros (name & nd & Hn & Hs & ->). exists name. split; [reflexivity|]. apply filter_In. split; [apply in_map_iff; exists (name, nd); auto | apply strip_suffix_iff; exact Hs].
Qed.

Section Sort.
  Variable pdq : list (bytes * N) -> list (bytes * N).
  Hypothesis Hpdq : forall l, Permutation (pdq l) l.
  Lemma sort_perm names : Permutation (sort_by_bundle pdq names) names.
  Proof.
    unfold sort_by_bundle. destruct (all_some _) as [pairs|] eqn:Hq; [|reflexivity].
    assert (Hm : map fst pairs = names).
    { apply all_some_map in Hq. revert Hq. clear. generalize pairs. induction names as [|f fs IH]; intros ps Hq; inversion Hq as [|? y ? ps' Hx Hr]; subst; [reflexivity|].
      cbn. rewrite (IH _ Hr). destruct (indices f) as [[x z]|]; [|discriminate]. injection Hx as <-. reflexivity. }
    transitivity (map fst pairs); [apply Permutation_map; apply Hpdq | rewrite Hm; reflexivity].
  Qed.
  Lemma sort_in names f : In f (sort_by_bundle pdq names) <-> In f names.
  Proof. split; apply Permutation_in; [|symmetry]; apply sort_perm. Qed.

  (** Ordered, if every name is of the expected form. *)
  Lemma sort_ordered names : (forall l, StronglySorted (fun a b => (snd a <= snd b)%N) (pdq l)) -> Forall (fun f => indices f <> None) names ->
    StronglySorted (fun f g => forall x y x' y', indices f = Some (x, y) -> indices g = Some (x', y') -> (x <= x')%N) (sort_by_bundle pdq names).
  Proof.
    intros Hord Hall. unfold sort_by_bundle. destruct (all_some _) as [pairs|] eqn:Hq.
    - apply all_some_map in Hq.
      assert (Hp : forall fx, In fx (pdq pairs) -> exists y, indices (fst fx) = Some (snd fx, y)).
      { intros fx Hin. apply (Permutation_in _ (Hpdq pairs)) in Hin. revert Hq Hin. clear. intros Hq Hin. induction Hq as [|f p fs ps Hx Hr IH]; [destruct Hin|].
        destruct Hin as [<-|Hin]; [|auto]. destruct (indices f) as [[x y]|] eqn:Hf; [|discriminate]. injection Hx as <-. exists y. exact Hf. }
      specialize (Hord pairs). revert Hord Hp. generalize (pdq pairs). clear. intros l Hs Hp. induction Hs as [|a l Hs IH Ha]; cbn [map]; constructor.
      + apply IH. intros fx Hin. apply Hp. right. exact Hin.
      + rewrite Forall_forall in *. intros g Hg. apply in_map_iff in Hg as (b & <- & Hb). intros x y x' y' H1 H2.
        destruct (Hp a (or_introl eq_refl)) as [y1 Ha1]. destruct (Hp b (or_intror Hb)) as [y2 Hb2]. rewrite H1 in Ha1. rewrite H2 in Hb2.
        injection Ha1 as E1 _. injection Hb2 as E2 _. rewrite E1, E2. exact (Ha b Hb).
    - exfalso. revert Hall Hq. clear. induction names as [|f fs IH]; intros Hall Hq; [discriminate|]. inversion Hall as [|? ? Hf Hr]; subst.
      cbn in Hq. destruct (indices f) as [[x y]|]; [|congruence]. cbn in Hq. apply IH; [exact Hr|]. destruct (all_some _); [discriminate | reflexivity].
  Qed.

  (** The loop, named. *)
  Section Go.
    Variables (path : bytes) (es : list (bytes * node)).
    Fixpoint go (l : list (bytes * node)) (gz csv : list bytes) {struct l} : list bytes * list bytes :=
      match l with
      | [] => (gz, csv)
      | (name, nd) :: l' =>
          match nd with
          | File => go l' gz csv
          | Dir sub =>
              if beqb name bundled
              then go l' (glob dot_gz (join path name) sub) (glob dot_csv path es)
              else let (g, c) := list_files pdq (join path name) nd in go l' (gz ++ g) (csv ++ c)
          end
      end.
    Lemma list_files_eq : list_files pdq path (Dir es) = (sort_by_bundle pdq (fst (go es [] [])), sort_by_bundle pdq (snd (go es [] []))).
    Proof. reflexivity. Qed.
    Definition dirs_in (l : list (bytes * node)) : Prop := forall d nd, In (d, nd) l -> is_dir nd = true -> d <> bundled.
    (** Without a further "bundled" the loop appends what the subdirectories give. *)
    Lemma go_plain l : dirs_in l -> forall gz csv f,
      (In f (fst (go l gz csv)) <-> In f gz \/ exists d nd, In (d, nd) l /\ is_dir nd = true /\ In f (fst (list_files pdq (join path d) nd))) /\
      (In f (snd (go l gz csv)) <-> In f csv \/ exists d nd, In (d, nd) l /\ is_dir nd = true /\ In f (snd (list_files pdq (join path d) nd))).
    Proof.
      induction l as [|[d nd] l IH]; intros Hd gz csv f.
      - cbn. split; (split; [auto | intros [Hx|(? & ? & [] & _)]; exact Hx]).
      - assert (Hl : dirs_in l) by (intros d' nd' Hin; apply Hd; right; exact Hin). cbn [go].
        destruct nd as [|sub].
        + destruct (IH Hl gz csv f) as [I1 I2]. rewrite I1, I2. split; (split; intros [Hx|(d' & nd' & Hin & Hdir & Hx)]; [left; exact Hx | right; exists d', nd'; split; [right; exact Hin | auto] | left; exact Hx |
            destruct Hin as [[= <- <-]|Hin]; [discriminate|]; right; exists d', nd'; auto]).
        + assert (Hne : d <> bundled) by (apply (Hd d (Dir sub)); [left; reflexivity | reflexivity]).
          destruct (beqb d bundled) eqn:Hb; [apply beqb_eq in Hb; contradiction|].
          destruct (list_files pdq (join path d) (Dir sub)) as [g c] eqn:Hlf. destruct (IH Hl (gz ++ g) (csv ++ c) f) as [I1 I2]. rewrite I1, I2, !in_app_iff. split; split.
          * intros [[Hx|Hx]|(d' & nd' & Hin & Hdir & Hx)]; [auto | right; exists d, (Dir sub); rewrite Hlf; split; [left; reflexivity | auto] | right; exists d', nd'; split; [right; exact Hin | auto]].
          * intros [Hx|(d' & nd' & [[= <- <-]|Hin] & Hdir & Hx)]; [auto | rewrite Hlf in Hx; auto | right; exists d', nd'; auto].
          * intros [[Hx|Hx]|(d' & nd' & Hin & Hdir & Hx)]; [auto | right; exists d, (Dir sub); rewrite Hlf; split; [left; reflexivity | auto] | right; exists d', nd'; split; [right; exact Hin | auto]].
          * intros [Hx|(d' & nd' & [[= <- <-]|Hin] & Hdir & Hx)]; [auto | rewrite Hlf in Hx; auto | right; exists d', nd'; auto].
    Qed.
    Lemma go_files p : Forall (fun e => is_dir (snd e) = false) p -> forall l gz csv, go (p ++ l) gz csv = go l gz csv.
    Proof. induction 1 as [|[d nd] p Hd Hp IH]; intros l gz csv; [reflexivity|]. cbn in Hd. destruct nd; [|discriminate]. cbn [app go]. apply IH. Qed.
  End Go.

  Lemma find_bundled es : (exists sub, In (bundled, Dir sub) es) \/ dirs_in es.
  Proof.
    induction es as [|[d nd] es IH]; [right; intros d nd []|]. destruct IH as [[sub Hs]|IH]; [left; exists sub; right; exact Hs|].
    destruct (beqb d bundled) eqn:Hb.
    - apply beqb_eq in Hb as ->. destruct nd as [|sub]; [right | left; exists sub; left; reflexivity].
      intros d' nd' [[= <- <-]|Hin]; [discriminate | eauto].
    - right. intros d' nd' [[= <- <-]|Hin]; [|eauto]. intros _ ->. rewrite beqb_refl in Hb. discriminate.
  Qed.
  Lemma node_ind2 (P : node -> Prop) : P File -> (forall es, Forall (fun e => P (snd e)) es -> P (Dir es)) -> forall n, P n.
  Proof.
    intros Hf Hd. fix IH 1. intros [|es]; [exact Hf|]. apply Hd. induction es as [|[d nd] es IHes]; constructor; [apply IH | exact IHes].
  Qed.

  Theorem list_complete n : tidy n -> forall path f,
    (In f (fst (list_files pdq path n)) <-> gz_path path n f) /\ (In f (snd (list_files pdq path n)) <-> csv_path path n f).
  Proof.
    induction n as [|es IH] using node_ind2; intros Ht path f.
    - cbn. split; (split; [intros [] | intros Hx; inversion Hx]).
    - inversion Ht as [|es' Hnd Hsub Hpre]; subst es'. rewrite list_files_eq. cbn [fst snd]. rewrite !sort_in.
      rewrite Forall_forall in IH, Hsub.
      assert (Hrec : forall l, (forall e, In e l -> In e es) ->
        ((exists d nd, In (d, nd) l /\ is_dir nd = true /\ In f (fst (list_files pdq (join path d) nd))) <-> exists d nd, In (d, nd) l /\ is_dir nd = true /\ gz_path (join path d) nd f) /\
        ((exists d nd, In (d, nd) l /\ is_dir nd = true /\ In f (snd (list_files pdq (join path d) nd))) <-> exists d nd, In (d, nd) l /\ is_dir nd = true /\ csv_path (join path d) nd f)).
      { intros l Hl. split; (split; intros (d & nd & Hin & Hdir & Hx); exists d, nd; (split; [exact Hin|]; split; [exact Hdir|]);
          destruct (IH (d, nd) (Hl _ Hin) (Hsub _ (Hl _ Hin)) (join path d) f) as [I1 I2]; cbn [snd] in I1, I2; tauto). }
      destruct (find_bundled es) as [[sub Hb]|Hno].
      + apply in_split in Hb as (p & q & Hes). specialize (Hpre p sub q Hes).
        assert (Hq : dirs_in q).
        { intros d nd Hin _ ->. rewrite Hes in Hnd. rewrite map_app in Hnd. cbn [map fst] in Hnd. apply NoDup_remove_2 in Hnd. apply Hnd. apply in_or_app. right. apply in_map_iff. exists (bundled, nd). auto. }
        destruct (Hrec q) as [R1 R2]; [intros e He; rewrite Hes; apply in_or_app; right; right; exact He|].
        assert (Hg : go path es es [] [] = go path es q (glob dot_gz (join path bundled) sub) (glob dot_csv path es)).
        { rewrite Hes at 2. rewrite go_files by exact Hpre. cbn [go]. rewrite beqb_refl. reflexivity. }
        rewrite Hg. destruct (go_plain path es q Hq (glob dot_gz (join path bundled) sub) (glob dot_csv path es) f) as [G1 G2]. rewrite G1, G2, R1, R2, !glob_iff.
        assert (Hinb : In (bundled, Dir sub) es) by (rewrite Hes; apply in_or_app; right; left; reflexivity).
        assert (Hqe : forall e, In e q -> In e es) by (intros e He; rewrite Hes; apply in_or_app; right; right; exact He).
        assert (Huniq : forall sub', In (bundled, Dir sub') es -> sub' = sub).
        { intros sub' Hin. rewrite Hes in Hin. apply in_app_or in Hin as [Hin|[Hin|Hin]].
          - rewrite Forall_forall in Hpre. specialize (Hpre _ Hin). discriminate.
          - congruence.
          - exfalso. exact (Hq _ _ Hin eq_refl eq_refl). }
        assert (Hinq : forall d nd, In (d, nd) es -> is_dir nd = true -> d <> bundled -> In (d, nd) q).
        { intros d nd Hin Hdir Hne. rewrite Hes in Hin. apply in_app_or in Hin as [Hin|[Hin|Hin]]; [|congruence | exact Hin].
          rewrite Forall_forall in Hpre. specialize (Hpre _ Hin). cbn in Hpre. congruence. }
        split; split.
        * intros [(name & nd & Hn & Hsf & ->)|(d & nd & Hin & Hdir & Hx)]; [exact (gz_here path es sub name nd Hinb Hn Hsf) | exact (gz_below path es d nd f (Hqe _ Hin) Hdir (Hq _ _ Hin Hdir) Hx)].
        * intros Hx. inversion Hx as [? ? sub' name nd H1 H2 H3|? ? d nd ? H1 H2 H3 H4]; subst.
          -- apply Huniq in H1 as ->. left. exists name, nd. auto.
          -- right. exists d, nd. auto.
        * intros [(name & nd & Hn & Hsf & ->)|(d & nd & Hin & Hdir & Hx)]; [exact (csv_here path es sub name nd Hinb Hn Hsf) | exact (csv_below path es d nd f (Hqe _ Hin) Hdir (Hq _ _ Hin Hdir) Hx)].
        * intros Hx. inversion Hx as [? ? sub' name nd H1 H2 H3|? ? d nd ? H1 H2 H3 H4]; subst.
          -- left. exists name, nd. auto.
          -- right. exists d, nd. auto.
      + destruct (go_plain path es es Hno [] [] f) as [G1 G2]. destruct (Hrec es) as [R1 R2]; [auto|]. rewrite G1, G2, R1, R2. split; split.
        * intros [[]|(d & nd & Hin & Hdir & Hx)]. exact (gz_below path es d nd f Hin Hdir (Hno _ _ Hin Hdir) Hx).
        * intros Hx. right. inversion Hx as [? ? sub' name nd H1 H2 H3|? ? d nd ? H1 H2 H3 H4]; subst; [exfalso; exact (Hno _ _ H1 eq_refl eq_refl)|]. exists d, nd. auto.
        * intros [[]|(d & nd & Hin & Hdir & Hx)]. exact (csv_below path es d nd f Hin Hdir (Hno _ _ Hin Hdir) Hx).
        * intros Hx. right. inversion Hx as [? ? sub' name nd H1 H2 H3|? ? d nd ? H1 H2 H3 H4]; subst; [exfalso; exact (Hno _ _ H1 eq_refl eq_refl)|]. exists d, nd. auto.
  Qed.
End Sort.

(** The names the journal takes and the names the sorting takes. *)
Lemma dot_names_agree a b ext : forallb is_digit a = true -> forallb is_digit b = true -> a <> [] -> b <> [] ->
  ext = dot_gz \/ ext = dot_csv -> (dec_value a <= dec_value b < 2 ^ 63)%N -> ~ In x2f (a ++ x2d :: b ++ ext) ->
  indices (a ++ x2d :: b ++ ext) = Some (dec_value a, dec_value b).
Proof.
  intros Ha Hb Hna Hnb Hext Hv Hsl. unfold indices.
  assert (Hbase : base_name (a ++ x2d :: b ++ ext) = a ++ x2d :: b ++ ext).
  { destruct (a ++ x2d :: b ++ ext) as [|c s] eqn:Hq; [reflexivity|]. cbn [base_name].
    destruct (existsb (Byte.eqb x2f) s) eqn:He.
    - apply existsb_exists in He as (y & Hy & Hyq). apply byte_eqb_eq in Hyq. subst y. exfalso. apply Hsl. right. exact Hy.
    - destruct (Byte.eqb c x2f) eqn:Hc; [apply byte_eqb_eq in Hc; exfalso; apply Hsl; left; exact Hc | reflexivity]. }
  rewrite Hbase. unfold match_name. rewrite (digit_prefix_app a (x2d :: b ++ ext)) by (auto; reflexivity).
  destruct a as [|a0 a]; [congruence|].
  cbn [Byte.eqb]. change (Byte.eqb x2d x2d) with true. cbv iota.
  rewrite (digit_prefix_app b ext) by (try exact Hb; destruct Hext as [-> | ->]; reflexivity).
  destruct b as [|b0 b]; [congruence|].
  assert (Ht : (match ext with c2 :: r3 => negb (Byte.eqb c2 x0a) && is_tail r3 | [] => false end) = true) by (destruct Hext as [-> | ->]; reflexivity).
  rewrite Ht. destruct (N.ltb_spec (dec_value (a0 :: a)) (2 ^ 63)); [|lia]. destruct (N.ltb_spec (dec_value (b0 :: b)) (2 ^ 63)); [|lia].
  destruct (N.leb_spec (dec_value (a0 :: a)) (dec_value (b0 :: b))); [reflexivity | lia].
Qed.
