(** Proofs: what the rounds of the map server keep true. *)
From Coq Require Import Permutation Sorted.
From Verif Require Import Base BaseLemmas UtilModel UtilIds DbModel DbTables DbIngest DbPrune DbCoalesce BundleModel BundleProofs.
From Verif Require Import TrieModel TrieSpec TrieTop ClientModel SmtModel SmtProofs RoundModel.

Notation lists := DbCoalesce.covers.

(** ** When a change of the tables leaves the certificates of a domain as they are *)
Definition closed (t : list cert_row) : Prop := forall c, In c t -> cr_parent c = [] \/ In (cr_parent c) (ids_of t).
Lemma row_of_id t i : In i (ids_of t) -> exists c, In c t /\ cr_id c = i.
Proof. intros Hi. apply in_map_iff in Hi. destruct Hi as (c & E & Hc). eauto. Qed.
Lemma lists_stored t assoc x i : lists t assoc x i -> exists c, In c t /\ cr_id c = i.
Proof. intros Hl. destruct Hl; eauto. Qed.
Lemma lists_mono t t' a a' x i : incl t t' -> incl a a' -> lists t a x i -> lists t' a' x i.
Proof.
  unfold incl. intros Ht Ha Hl. induction Hl as [c Hc Hx|r c Hr _ IH Hc E].
  - exact (DbCoalesce.covers_own t' a' x c (Ht _ Hc) (Ha _ Hx)).
  - exact (DbCoalesce.covers_parent t' a' x r c (Ht _ Hr) IH (Ht _ Hc) E).
Qed.
Lemma lists_stable t t' a a' x : unique_ids t' -> incl t t' -> (forall c, In c t' -> cr_id c <> []) -> closed t -> incl a a' ->
  (forall i, In (x, i) a' -> In (x, i) a) -> (forall c, In c t' -> In (x, cr_id c) a -> In c t) ->
  forall i, lists t' a' x i <-> lists t a x i.
Proof.
  intros Hu Hi Hne Hc Ha Hx Hrow i. unfold incl in *. split; [|apply lists_mono; assumption].
  intros Hl. induction Hl as [c Hin Hxc|r c Hr _ IH Hin E].
  - apply covers_own; [apply Hrow; auto | auto].
  - destruct (lists_stored _ _ _ _ IH) as (r0 & Hr0 & E0).
    assert (r0 = r) by (eapply (row_unique t'); eauto). subst r0.
    eapply covers_parent; [exact Hr0 | exact IH | | exact E].
    destruct (Hc r Hr0) as [En|Hp]; [exfalso; apply (Hne c Hin); congruence|].
    apply row_of_id in Hp. destruct Hp as (c0 & Hc0 & Ec0). assert (c0 = c) by (eapply (row_unique t'); eauto; congruence). subst c0. exact Hc0.
Qed.
Lemma lists_pruned t t' a x cut : (forall c, In c t' <-> In c t /\ ~ doomed t cut (cr_id c)) -> (forall i, In (x, i) a -> ~ doomed t cut i) ->
  forall i, lists t' a x i <-> lists t a x i.
Proof.
  intros Ht Hx i. split; [apply lists_mono; [intros c Hc; apply Ht in Hc; tauto | apply incl_refl]|].
  intros Hl. cut (lists t' a x i /\ ~ doomed t cut i); [tauto|]. induction Hl as [c Hin Hxc|r c Hr _ [IH Hd] Hin E].
  - specialize (Hx _ Hxc). split; [|exact Hx]. apply covers_own; [apply Ht; auto | exact Hxc].
  - assert (Hdc : ~ doomed t cut (cr_id c)) by (intros Hdc; apply Hd; apply doomed_below; [exact Hr | rewrite <- E; exact Hdc]).
    split; [|exact Hdc]. eapply covers_parent; [apply Ht; split; [exact Hr | exact Hd] | exact IH | apply Ht; auto | exact E].
Qed.
Lemma lists_flat t a x : (forall c, In c t -> cr_parent c = [] /\ cr_id c <> []) -> forall i, lists t a x i <-> In i (ids_of t) /\ In (x, i) a.
Proof.
  intros Hf i. split.
  - intros Hl. destruct Hl as [c Hc Hx|r c Hr _ Hc E]; [split; [apply in_map; exact Hc | exact Hx]|].
    exfalso. destruct (Hf _ Hr) as [E1 _]. destruct (Hf _ Hc) as [_ E2]. congruence.
  - intros [Hi Hx]. apply row_of_id in Hi. destruct Hi as (c & Hc & <-). apply covers_own; assumption.
Qed.
Lemma column_ext t t' a a' x v : (forall i, lists t' a' x i <-> lists t a x i) -> column t a x v -> column t' a' x v.
Proof. intros He (ids & H1 & H2). exists ids. split; [|exact H2]. intros i. rewrite He. apply H1. Qed.

(** ** Statements of an ingestion, spelled out *)
Section Effects.
  Variable H : bytes -> bytes.
  Definition all_stmts (rows : list cert_row) (ps pols : list (bytes * bytes)) (d : db) : db :=
    load_dp (map (fun p => (H (fst p), H (snd p))) pols)
      (load_pols (map (fun p => mk_cr (H (snd p)) [] far_future (snd p)) pols)
        (load_domains (map (fun p => (H (fst p), fst p)) pols) (load_dirty (map (fun p => H (fst p)) pols)
          (load_dc (map (fun p => (H (fst p), snd p)) ps) (load_domains (map (fun p => (H (fst p), fst p)) ps)
            (load_dirty (map (fun p => H (fst p)) ps) (load_certs rows d))))))).
  Lemma ingest_effect names ids parents exps payloads pols sc d : length names = length ids ->
    insert_certs H names ids parents exps payloads = Ok sc -> exists rows ps,
    cert_rows ids parents exps payloads = Ok rows /\ name_pairs names ids = Ok ps /\
    run (sc ++ insert_policies H pols) d = all_stmts rows ps pols d.
  Proof.
    intros Hl E.
    assert (Hc : exists rows ps, cert_rows ids parents exps payloads = Ok rows /\ name_pairs names ids = Ok ps /\
      run sc d = load_dc (map (fun p => (H (fst p), snd p)) ps) (load_domains (map (fun p => (H (fst p), fst p)) ps)
            (load_dirty (map (fun p => H (fst p)) ps) (load_certs rows d)))).
    { unfold insert_certs in E. destruct ids as [|i ids].
      - destruct names; [|discriminate]. injection E as <-. exists [], []. split; [reflexivity|]. split; [reflexivity|]. destruct d; reflexivity.
      - destruct (cert_rows (i :: ids) parents exps payloads) as [rows| |]; try discriminate. destruct (name_pairs names (i :: ids)) as [ps| |]; try discriminate.
        injection E as <-. exists rows, ps. auto. }
    destruct Hc as (rows & ps & H1 & H2 & H3). exists rows, ps. split; [exact H1|]. split; [exact H2|]. rewrite run_app, H3.
    unfold all_stmts, insert_policies. destruct pols as [|p pols]; [|reflexivity]. match goal with |- run [] ?x = _ => generalize x end. intros []. reflexivity.
  Qed.
  Lemma cert_rows_row ids : forall parents exps payloads rows, cert_rows ids parents exps payloads = Ok rows ->
    forall r, In r rows -> In (cr_id r) ids /\ In (cr_parent r) parents.
  Proof.
    induction ids as [|i ids IH]; intros [|p ps] [|e es] [|y ys] rows E r Hr; cbn in E; try discriminate; try (injection E as <-; destruct Hr).
    destruct (cert_rows ids ps es ys) eqn:Er; try discriminate. injection E as <-. destruct Hr as [<-|Hr]; [cbn; auto|].
    destruct (IH _ _ _ _ Er r Hr). cbn. auto.
  Qed.
  Lemma dirty_key_after l d x : In x (map fst (d_dirty (load_dirty l d))) <-> In x (map fst (d_dirty d)) \/ In x l.
  Proof.
    split.
    - intros Hx. apply in_map_iff in Hx. destruct Hx as (r & <- & Hr). apply dirty_after in Hr. destruct Hr as [[Hr _]|[_ Hr]]; [left; apply in_map; exact Hr | auto].
    - intros Hx. destruct (in_dec (list_eq_dec byte_eq_dec) x l) as [Hi|Hi].
      + apply in_map_iff. exists (x, false). split; [reflexivity|]. apply dirty_after. auto.
      + destruct Hx as [Hx|Hx]; [|contradiction]. apply in_map_iff in Hx. destruct Hx as (r & <- & Hr). apply in_map. apply dirty_after. auto.
  Qed.
End Effects.

Lemma new_before_lt mask : forall j j', j < j' -> nth_error mask j = Some false -> nth_error mask j' = Some false -> new_before mask j < new_before mask j'.
Proof.
  induction mask as [|v mask IH]; intros j j' Hj E E'; [destruct j; discriminate|]. destruct j' as [|j']; [lia|]. destruct j as [|j].
  - cbn in E. injection E as ->. unfold new_before. cbn. lia.
  - cbn in E, E'. specialize (IH j j' ltac:(lia) E E'). unfold new_before in *. cbn [firstn filter]. destruct v; cbn [negb length]; lia.
Qed.

Section Rounds.
  Variable H : bytes -> bytes.
  Hypothesis Hlen : forall x, length (H x) = HashLength.
  Variables limit max_depth size : nat.
  Hypothesis size_pos : 0 < size.

  (** The row of domain_payloads is what the tables say. *)
  Definition fresh_row (d : db) (x : bytes) : Prop := exists cs ps,
    column (d_certs d) (d_dc d) x cs /\ column (d_pols d) (d_dp d) x ps /\
    (forall r, In (x, r) (d_pay d) <-> (cs <> None \/ ps <> None) /\ r = mk_pr cs (option_map H cs) ps (option_map H ps)).
  Record tables_ok (d : db) : Prop := mk_ok {
    ok_keyed : keyed d;
    ok_ids : forall c, In c (d_certs d) -> length (cr_id c) = HashLength;
    ok_closed : closed (d_certs d);
    ok_pols : forall c, In c (d_pols d) -> cr_parent c = [] /\ length (cr_id c) = HashLength;
    ok_dp : forall x i, In (x, i) (d_dp d) -> In i (ids_of (d_pols d));
    ok_rows : forall x, ~ In (x, false) (d_dirty d) -> fresh_row d x }.
  Lemma id_not_nil (i : bytes) : length i = HashLength -> i <> [].
  Proof. intros E ->. discriminate. Qed.
  Lemma fresh_row_ext d d' x : (forall i, lists (d_certs d') (d_dc d') x i <-> lists (d_certs d) (d_dc d) x i) ->
    (forall i, lists (d_pols d') (d_dp d') x i <-> lists (d_pols d) (d_dp d) x i) -> (forall r, In (x, r) (d_pay d') <-> In (x, r) (d_pay d)) ->
    fresh_row d x -> fresh_row d' x.
  Proof.
    intros E1 E2 E3 (cs & ps & C1 & C2 & C3). exists cs, ps. split; [eapply column_ext; eauto|]. split; [eapply column_ext; eauto|].
    intros r. rewrite E3. apply C3.
  Qed.

  Lemma start_ok : tables_ok empty_db.
  Proof.
    constructor; try (intros ? []; fail); try (intros ? ? []; fail).
    - repeat split; constructor.
    - intros x _. exists None, None.
      assert (Hc : column [] [] x None) by (exists []; split; [intros i; split; [intros [] | intros Hl; destruct Hl; contradiction]|]; split; [constructor | reflexivity]).
      split; [exact Hc|]. split; [exact Hc|]. intros r. cbn. split; [intros [] | intros [[|] _]; congruence].
  Qed.

  (** ** Ingestion *)
  Lemma all_stmts_ok rows ps pols d : tables_ok d ->
    (forall r, In r rows -> length (cr_id r) = HashLength) ->
    (forall r, In r rows -> cr_parent r = [] \/ In (cr_parent r) (ids_of rows) \/ In (cr_parent r) (ids_of (d_certs d))) ->
    (forall x r, In r rows -> ~ In (cr_id r) (ids_of (d_certs d)) -> In (x, cr_id r) (d_dc d) -> exists n, In (n, cr_id r) ps /\ x = H n) ->
    tables_ok (all_stmts H rows ps pols d) /\ d_pay (all_stmts H rows ps pols d) = d_pay d /\
    (forall x, In x (map fst (d_dirty d)) -> In x (map fst (d_dirty (all_stmts H rows ps pols d)))).
  Proof.
    intros [K I Cl P Dp R] Hid Hpar Hback. set (d' := all_stmts H rows ps pols d).
    set (l1 := map (fun p => H (fst p)) ps). set (l2 := map (fun p : bytes * bytes => H (fst p)) pols).
    set (prow := map (fun p : bytes * bytes => mk_cr (H (snd p)) [] far_future (snd p)) pols).
    assert (Ec : d_certs d' = insert_ignore cert_key (d_certs d) rows) by reflexivity.
    assert (Ep : d_pols d' = insert_replace cert_key (d_pols d) prow) by reflexivity.
    assert (Edc : d_dc d' = insert_ignore pair_key (d_dc d) (map (fun p => (H (fst p), snd p)) ps)) by reflexivity.
    assert (Edp : d_dp d' = insert_ignore pair_key (d_dp d) (map (fun p => (H (fst p), H (snd p))) pols)) by reflexivity.
    assert (Ed : d_dirty d' = d_dirty (load_dirty l2 (load_dirty l1 d))) by reflexivity.
    assert (Ey : d_pay d' = d_pay d) by reflexivity.
    assert (Hpend : forall x, In (x, false) (d_dirty d') <-> In (x, false) (d_dirty d) \/ In x l1 \/ In x l2) by (intros x; rewrite Ed, !pending_after; tauto).
    assert (Hids : forall i, In i (ids_of (d_certs d')) <-> In i (ids_of (d_certs d)) \/ In i (ids_of rows)) by (intros i; apply (load_certs_ids rows d)).
    assert (Hpids : forall i, In i (ids_of (d_pols d')) <-> In i (ids_of (d_pols d)) \/ In i (ids_of prow)) by (intros i; apply (load_pols_ids prow d)).
    assert (Hnew : forall c, In c (d_certs d') -> In c (d_certs d) \/ In c rows /\ ~ In (cr_id c) (ids_of (d_certs d)))
      by (intros c Hc; rewrite Ec in Hc; apply (ignore_from cr_id beqb beqb_eq cert_key cert_key_ok); exact Hc).
    assert (Hprow : forall c, In c prow -> cr_parent c = [] /\ length (cr_id c) = HashLength).
    { intros c Hc. apply in_map_iff in Hc. destruct Hc as (p & <- & _). split; [reflexivity | apply Hlen]. }
    assert (K' : keyed d').
    { destruct K as (K1 & K2 & K3 & K4 & K5). repeat split.
      - unfold unique_ids. rewrite Ec. apply (ignore_nodup cr_id beqb beqb_eq cert_key cert_key_ok). exact K1.
      - unfold unique_ids. rewrite Ep. apply (replace_nodup cr_id beqb beqb_eq cert_key cert_key_ok). exact K2.
      - rewrite Ed. unfold load_dirty. cbn [d_dirty set_dirty]. apply (replace_nodup fst beqb beqb_eq fst_key fst_key_ok). apply (replace_nodup fst beqb beqb_eq fst_key fst_key_ok). exact K3.
      - rewrite Ey. exact K4.
      - change (d_domains d') with (insert_ignore fst_key (insert_ignore fst_key (d_domains d) (map (fun p => (H (fst p), fst p)) ps)) (map (fun p => (H (fst p), fst p)) pols)).
        apply (ignore_nodup fst beqb beqb_eq fst_key fst_key_ok). apply (ignore_nodup fst beqb beqb_eq fst_key fst_key_ok). exact K5. }
    assert (I' : forall c, In c (d_certs d') -> length (cr_id c) = HashLength) by (intros c Hc; destruct (Hnew c Hc) as [|[]]; auto).
    assert (P' : forall c, In c (d_pols d') -> cr_parent c = [] /\ length (cr_id c) = HashLength).
    { intros c Hc. rewrite Ep in Hc. apply (replace_from cr_id beqb beqb_eq cert_key cert_key_ok) in Hc. destruct Hc as [[Hc _]|Hc]; auto. }
    split; [|split; [reflexivity|]].
    - constructor; auto.
      + intros c Hc. destruct (Hnew c Hc) as [Hc0|[Hc0 _]].
        * destruct (Cl c Hc0) as [|Hp]; [auto|]. right. apply Hids. auto.
        * destruct (Hpar c Hc0) as [|[|]]; auto; right; apply Hids; auto.
      + intros x i Hi. apply Hpids. rewrite Edp in Hi. apply pair_ignore_in in Hi. destruct Hi as [Hi|Hi]; [left; eapply Dp; exact Hi|].
        right. apply in_map_iff in Hi. destruct Hi as (p & E & Hp). injection E as <- <-. unfold ids_of, prow. rewrite map_map. apply in_map_iff. exists p. auto.
      + intros x Hx. rewrite Hpend in Hx.
        apply (fresh_row_ext d d' x); [| |rewrite Ey; tauto|apply R; tauto].
        * apply lists_stable.
          -- destruct K' as (K1 & _). exact K1.
          -- intros c Hc. rewrite Ec. apply ignore_keeps. exact Hc.
          -- intros c Hc. apply id_not_nil. auto.
          -- exact Cl.
          -- intros p Hp. rewrite Edc. apply pair_ignore_in. auto.
          -- intros i Hi. rewrite Edc in Hi. apply pair_ignore_in in Hi. destruct Hi as [Hi|Hi]; [exact Hi|]. exfalso. apply Hx. right. left.
             apply in_map_iff in Hi. destruct Hi as (p & E & Hp). injection E as <- <-. apply in_map_iff. exists p. auto.
          -- intros c Hc Hxc. destruct (Hnew c Hc) as [Hc0|[Hc0 Hno]]; [exact Hc0|]. exfalso. apply Hx. right. left.
             destruct (Hback x c Hc0 Hno Hxc) as (n & Hn & ->). apply in_map_iff. exists (n, cr_id c). auto.
        * intros i. rewrite (lists_flat (d_pols d')), (lists_flat (d_pols d)).
          -- rewrite Hpids, Edp, pair_ignore_in. split; [|tauto]. intros [_ [Hi|Hi]].
             ++ split; [eapply Dp; exact Hi | exact Hi].
             ++ exfalso. apply Hx. right. right. apply in_map_iff in Hi. destruct Hi as (p & E & Hp). injection E as <- <-. apply in_map_iff. exists p. auto.
          -- intros c Hc. destruct (P c Hc). split; [assumption | apply id_not_nil; assumption].
          -- intros c Hc. destruct (P' c Hc). split; [assumption | apply id_not_nil; assumption].
    - intros x Hx. rewrite Ed. apply dirty_key_after. left. apply dirty_key_after. left. exact Hx.
  Qed.

  Lemma ingest_ok keep b d d' : tables_ok d -> batch_ok H d b -> ingest H keep b d = Ok d' ->
    tables_ok d' /\ d_pay d' = d_pay d /\ (forall x, In x (map fst (d_dirty d)) -> In x (map fst (d_dirty d'))).
  Proof.
    intros Hok (B1 & B2 & B3 & B4 & B5 & B6 & B7) E. rewrite Forall_forall in B5.
    assert (Hgen : forall mask pols sc, length mask = length (b_ids b) ->
      (forall i id, nth_error mask i = Some true -> nth_error (b_ids b) i = Some id -> In id (ids_of (d_certs d))) ->
      insert_certs H (kept mask (b_names b)) (kept mask (b_ids b)) (kept mask (b_parents b)) (b_exps b) (kept mask (b_certs b)) = Ok sc ->
      d' = run (sc ++ insert_policies H pols) d ->
      tables_ok d' /\ d_pay d' = d_pay d /\ (forall x, In x (map fst (d_dirty d)) -> In x (map fst (d_dirty d')))).
    { intros mask pols sc Hm Hsound Es ->. 
      assert (Hk : length (kept mask (b_names b)) = length (kept mask (b_ids b))) by (apply kept_length; lia).
      destruct (ingest_effect H _ _ _ _ _ pols _ d Hk Es) as (rows & ps & Er & Ep & ->).
      pose proof (cert_rows_row _ _ _ _ _ Er) as Hrow. pose proof (cert_rows_ids _ _ _ _ _ Er) as Hids.
      assert (Hin : forall i, In i (kept mask (b_ids b)) -> In i (b_ids b)) by (intros i Hi; apply kept_in in Hi; destruct Hi as (j & _ & Hj); eapply nth_error_In; exact Hj).
      assert (Hnot : forall i, In i (b_ids b) -> In i (ids_of (d_certs d)) \/ In i (kept mask (b_ids b))).
      { intros i Hi. apply In_nth_error in Hi. destruct Hi as (j & Hj). destruct (nth_error mask j) as [[|]|] eqn:Em.
        - left. eapply Hsound; eassumption.
        - right. apply kept_in. eauto.
        - apply nth_error_None in Em. assert (nth_error (b_ids b) j <> None) by congruence. apply nth_error_Some in H0. lia. }
      apply all_stmts_ok; [exact Hok | | |].
      - intros r Hr. apply B5. apply Hin. apply Hrow. exact Hr.
      - intros r Hr. destruct (Hrow r Hr) as [_ Hp]. apply kept_in in Hp. destruct Hp as (j & _ & Hj). apply nth_error_In in Hj.
        destruct (B6 _ Hj) as [|[Hp|Hp]]; [auto | | auto]. rewrite Hids. destruct (Hnot _ Hp); auto.
      - intros x r Hr Hno Hx. destruct (Hrow r Hr) as [Hi _].
        destruct (B7 x (cr_id r) (Hin _ Hi) Hno Hx) as (j & ns & n & N1 & N2 & N3 & ->). exists n. split; [|reflexivity].
        assert (Em : nth_error mask j = Some false).
        { destruct (nth_error mask j) as [[|]|] eqn:Em; [exfalso; apply Hno; eapply Hsound; eassumption | reflexivity |].
          apply nth_error_None in Em. assert (nth_error (b_ids b) j <> None) by congruence. apply nth_error_Some in H0. lia. }
        apply (name_pairs_in H _ _ _ Ep). exists (new_before mask j), ns. split; [apply kept_nth; assumption|]. split; [exact N3|]. apply kept_nth; assumption. }
    unfold ingest in E. destruct keep.
    - assert (Ha : aligned (b_names b) (b_ids b) (b_parents b) (b_certs b) (b_exps b)) by (repeat split; assumption).
      rewrite (keep_existing_eq H d _ _ _ _ _ _ Ha) in E. destruct (insert_certs _ _ _ _ _ _) as [sc| |] eqn:Es; try discriminate. injection E as <-.
      eapply Hgen; [apply mask_length | | exact Es | reflexivity].
      intros i id Hm Hi. eapply (check_sound (d_certs d) batch_size (b_ids b) i id batch_pos); eassumption.
    - unfold overwrite in E. destruct (insert_certs _ _ _ _ _ _) as [sc| |] eqn:Es; try discriminate. injection E as <-.
      assert (Hall : forall A (l : list A), length l = length (b_ids b) -> kept (repeat false (length (b_ids b))) l = l).
      { intros A l Hl. rewrite <- Hl. clear. induction l as [|x l IH]; [reflexivity|]. cbn [length repeat]. rewrite kept_cons, IH. reflexivity. }
      eapply (Hgen (repeat false (length (b_ids b)))); [apply repeat_length | | | reflexivity].
      + intros i id Hm _. apply nth_error_In in Hm. apply repeat_spec in Hm. discriminate.
      + rewrite !Hall by congruence. exact Es.
  Qed.

  (** ** Pruning, possibly cut short *)
  Lemma prune_ok cut d s n : tables_ok d -> prune_stmts max_depth cut d = Ok s ->
    tables_ok (run (firstn n s) d) /\ d_pay (run (firstn n s) d) = d_pay d /\
    (forall x, In x (map fst (d_dirty d)) -> In x (map fst (d_dirty (run (firstn n s) d)))).
  Proof.
    intros Hok E. destruct (stmts_shape _ _ _ _ E) as (gone & touched & -> & Hg & Ht).
    assert (H1 : tables_ok (load_dirty touched d)).
    { destruct Hok as [K I Cl P Dp R]. constructor; auto.
      - destruct K as (K1 & K2 & K3 & K4 & K5). repeat split; auto. unfold load_dirty. cbn [d_dirty set_dirty]. apply (replace_nodup fst beqb beqb_eq fst_key fst_key_ok). exact K3.
      - intros x Hx. rewrite pending_after in Hx. destruct (R x) as (cs & ps & F); [tauto|]. exists cs, ps. exact F. }
    assert (H2 : tables_ok (delete_certs gone (load_dirty touched d))).
    { pose proof (fun c => delete_in gone (load_dirty touched d) cut c Hg) as Hin.
      set (d2 := delete_certs gone (load_dirty touched d)) in *. change (d_certs (load_dirty touched d)) with (d_certs d) in Hin.
      destruct H1 as [K I Cl P Dp R]. constructor.
      - destruct K as (K1 & K2 & K3 & K4 & K5). repeat split; auto. unfold unique_ids, d2. cbn [delete_certs d_certs set_certs]. apply nodup_filter. exact K1.
      - intros c Hc. apply I. apply Hin in Hc. tauto.
      - intros c Hc. apply Hin in Hc. destruct Hc as [Hc Hd]. destruct (Cl c Hc) as [|Hp]; [auto|]. right. apply row_of_id in Hp. destruct Hp as (p & Hp & Ep).
        change (In p (d_certs d)) in Hp. apply in_map_iff. exists p. split; [exact Ep|]. apply Hin. split; [exact Hp|]. intros Hdp. apply Hd. apply doomed_below; [exact Hc|]. rewrite <- Ep. exact Hdp.
      - exact P.
      - exact Dp.
      - intros x Hx. change (d_dirty d2) with (d_dirty (load_dirty touched d)) in Hx. apply (fresh_row_ext (load_dirty touched d) d2 x); [| reflexivity | reflexivity | apply R; exact Hx].
        apply (lists_pruned _ _ _ _ cut Hin). intros i Hi Hd. apply Hx. apply pending_after. right. apply Ht. exists i. auto. }
    assert (Hk : forall x, In x (map fst (d_dirty d)) -> In x (map fst (d_dirty (load_dirty touched d)))) by (intros x Hx; apply dirty_key_after; auto).
    destruct n as [|[|n]]; cbn [firstn run fold_left]; [auto | auto |]. rewrite firstn_nil. cbn [fold_left]. auto.
  Qed.

  (** ** Coalescing, any execution *)
  Lemma exec_good d es x : keyed d -> good H max_depth d (fst (exec H max_depth size (start d) es)) x.
  Proof.
    intros K. pose proof (exec_inv H max_depth size size_pos d K es (start d) (start_inv H max_depth d K)) as (_ & _ & W).
    eapply winv_good; [apply (W (shard x) (shard_lt x)) | reflexivity].
  Qed.
  Lemma coalesce_ok d es : tables_ok d -> let d' := fst (exec H max_depth size (start d) es) in
    tables_ok d' /\ (forall x, ~ In x (map fst (d_dirty d)) -> forall r, In (x, r) (d_pay d') <-> In (x, r) (d_pay d)) /\
    (forall x, In x (map fst (d_dirty d)) -> In x (map fst (d_dirty d'))).
  Proof.
    intros Hok d'. pose proof (ok_keyed d Hok) as K.
    pose proof (exec_inv H max_depth size size_pos d K es (start d) (start_inv H max_depth d K)) as (K' & S4 & _). fold d' in K', S4.
    pose proof (fun x => exec_good d es x K) as Hg. fold d' in Hg. destruct S4 as (S1 & S2 & S3 & S5).
    split; [|split].
    - destruct Hok as [_ I Cl P Dp R]. constructor; [exact K' | rewrite S1; exact I | rewrite S1; exact Cl | rewrite S2; exact P | rewrite S5, S2; exact Dp |].
      intros x Hx. destruct (Hg x) as [[Hp [[Ho _]|(Hd & p & Ht & Hpl & _)]]|[Hp (F1 & F2 & F3)]].
      + exfalso. apply Hx. apply (dl_in H d' x false K'). exact Ho.
      + unfold target, pay_of in Ht. destruct (closure max_depth (d_certs d) (d_dc d) x) as [cs|] eqn:Ec; [|discriminate].
        destruct (closure max_depth (d_pols d) (d_dp d) x) as [ps|] eqn:Ep; [|discriminate]. injection Ht as <-.
        destruct K as (K1 & K2 & _). exists (glued cs), (glued ps). rewrite S1, S2, S3, S5.
        split; [eapply glued_column; eassumption|]. split; [eapply glued_column; eassumption|]. intros r.
        rewrite (look_rows H (d_pay d') x r) by (destruct K' as (_ & _ & _ & K4 & _); exact K4). unfold pl in Hpl. rewrite Hpl. unfold fpay, all_null. cbn [pr_certs pr_pols].
        destruct (glued cs) as [v|], (glued ps) as [w|]; (split; [intros Eq; first [discriminate | injection Eq as <-; split; [first [left; discriminate | right; discriminate] | reflexivity]] | intros [Hor ->]; try reflexivity; destruct Hor; congruence]).
      + destruct (R x) as (cs & ps & C1 & C2 & C3).
        { exact Hp. }
        exists cs, ps. rewrite S1, S2, S3, S5. split; [exact C1|]. split; [exact C2|]. intros r. rewrite <- C3. apply (same_rows H); [apply K | apply K' | exact F2].
    - intros x Hx r. destruct (Hg x) as [[Hp _]|[_ (F1 & F2 & F3)]].
      + exfalso. apply Hx. apply in_map_iff. exists (x, false). auto.
      + apply (same_rows H); [apply K | apply K' | exact F2].
    - intros x Hx. apply in_map_iff in Hx. destruct Hx as ([y b] & <- & Hb). cbn [fst]. assert (Hsome : exists r, dl d' y = Some r).
      { destruct (Hg y) as [[_ [[Ho _]|[Ho _]]]|[_ (F1 & _)]]; eauto. rewrite F1. exists (y, b). apply (dl_in H d y b K). exact Hb. }
      destruct Hsome as (r & Er). apply (look_in fst beqb beqb_eq) in Er. destruct Er as [Hr Hf]. rewrite <- Hf. apply in_map. exact Hr.
  Qed.
  Lemma coalesced_all d es : tables_ok d -> returned (exec H max_depth size (start d) es) = true ->
    forall x, ~ In (x, false) (d_dirty (fst (exec H max_depth size (start d) es))).
  Proof.
    intros Hok Hr x Hx. pose proof (ok_keyed d Hok) as K.
    pose proof (exec_inv H max_depth size size_pos d K es (start d) (start_inv H max_depth d K)) as (K' & _ & W).
    specialize (W (shard x) (shard_lt x)). rewrite (returned_all size size_pos _ _ Hr (shard_lt x)) in W. destruct (W x eq_refl) as [_ Hn]. apply Hn. apply (dl_in H _ x false K'). exact Hx.
  Qed.

  (** ** The payload of a fresh row *)
  (** [ids]: the certificates and policies of a domain according to the tables, sorted. *)
  Definition listing (d : db) (x : bytes) (ids : list bytes) : Prop := exists cs ps,
    NoDup cs /\ (forall i, In i cs <-> lists (d_certs d) (d_dc d) x i) /\ NoDup ps /\ (forall i, In i ps <-> lists (d_pols d) (d_dp d) x i) /\
    Permutation ids (cs ++ ps) /\ StronglySorted id_le ids.
  Lemma strict_nodup l : StronglySorted (fun a b => bcmp a b = Lt) l -> NoDup l.
  Proof.
    induction l as [|x l IH]; intros Hs; constructor; inversion Hs as [|? ? Hs' Hf]; subst; [|apply IH; assumption].
    intros Hi. rewrite Forall_forall in Hf. specialize (Hf x Hi). rewrite bcmp_refl in Hf. discriminate.
  Qed.
  Lemma fresh_payload d x : tables_ok d -> fresh_row d x -> exists ids, listing d x ids /\ Forall (fun i => length i = HashLength) ids /\ entry_of d x = (x, concat ids).
  Proof.
    intros Hok (cs & ps & (l1 & C1 & C2 & C3) & (l2 & P1 & P2 & P3) & Hr).
    assert (L1 : Forall (fun i : bytes => length i = IDSize) l1).
    { apply Forall_forall. intros i Hi. apply C1 in Hi. apply lists_stored in Hi. destruct Hi as (c & Hc & <-). apply (ok_ids d Hok). exact Hc. }
    assert (L2 : Forall (fun i : bytes => length i = IDSize) l2).
    { apply Forall_forall. intros i Hi. apply P1 in Hi. apply lists_stored in Hi. destruct Hi as (c & Hc & <-). apply (ok_pols d Hok). exact Hc. }
    exists (sort_ids (l1 ++ l2)). pose proof (sort_perm (l1 ++ l2)) as Hp. split; [|split].
    - exists l1, l2. split; [apply strict_nodup; exact C2|]. split; [exact C1|]. split; [apply strict_nodup; exact P2|]. split; [exact P1|]. split; [exact Hp | apply sort_sorted].
    - eapply Permutation_Forall; [symmetry; exact Hp|]. apply Forall_app. split; assumption.
    - assert (Hn : forall l (v : option bytes), Forall (fun i : bytes => length i = IDSize) l -> v = match l with [] => None | _ => Some (concat l) end -> bytes_to_ids (null_bytes v) = l).
      { intros l v Hl ->. destruct l as [|i l]; [reflexivity|]. cbn [null_bytes]. exact (ids_round_trip (i :: l) Hl). }
      unfold entry_of. f_equal. destruct (ok_keyed d Hok) as (_ & _ & _ & K4 & _).
      change (find (fun r => beqb (fst r) x) (d_pay d)) with (look fst beqb x (d_pay d)). destruct (look fst beqb x (d_pay d)) as [[y r]|] eqn:El.
      + pose proof (look_in fst beqb beqb_eq _ _ _ El) as [Hi Hf]. cbn [fst] in Hf. subst y. apply Hr in Hi. destruct Hi as [_ ->]. unfold payload_of, all_ids. cbn [snd pr_certs pr_pols].
        rewrite (Hn l1 cs L1 C3), (Hn l2 ps L2 P3). reflexivity.
      + assert (Hnone : cs = None /\ ps = None).
        { destruct cs as [v|], ps as [w|]; auto; exfalso; apply (look_none fst beqb beqb_eq) in El; apply El; apply in_map_iff; eexists; (split; [|apply Hr; split; [|reflexivity]]); try reflexivity; try (left; discriminate); right; discriminate. }
        destruct Hnone as [-> ->]. destruct l1; [|discriminate]. destruct l2; [|discriminate]. reflexivity.
  Qed.
  Lemma entry_same d d' x : keyed d -> keyed d' -> (forall r, In (x, r) (d_pay d') <-> In (x, r) (d_pay d)) -> entry_of d' x = entry_of d x.
  Proof.
    intros (_ & _ & _ & K & _) (_ & _ & _ & K' & _) Hr. unfold entry_of. f_equal.
    change (find (fun r => beqb (fst r) x) (d_pay d)) with (look fst beqb x (d_pay d)). change (find (fun r => beqb (fst r) x) (d_pay d')) with (look fst beqb x (d_pay d')).
    replace (look fst beqb x (d_pay d')) with (look fst beqb x (d_pay d)); [reflexivity|].
    destruct (look fst beqb x (d_pay d)) as [[y r]|] eqn:E.
    - pose proof (look_one H _ _ _ E) as Ey. cbn in Ey. subst y. apply (look_rows H _ _ _ K) in E. apply Hr in E. apply (look_rows H _ _ _ K') in E. congruence.
    - destruct (look fst beqb x (d_pay d')) as [[y r]|] eqn:E'; [|reflexivity]. pose proof (look_one H _ _ _ E') as Ey. cbn in Ey. subst y.
      apply (look_rows H _ _ _ K') in E'. apply Hr in E'. apply (look_rows H _ _ _ K) in E'. congruence.
  Qed.
  Lemma look_keyed d x : keyed d -> ~ In (x, false) (d_dirty d) \/ In (x, false) (d_dirty d).
  Proof.
    intros K. destruct (dl d x) as [[y []]|] eqn:E.
    - left. intros Hi. apply (dl_in H d x false K) in Hi. congruence.
    - right. pose proof (look_one H _ _ _ E) as Ey. cbn in Ey. subst y. apply (dl_in H d x false K). exact E.
    - left. intros Hi. apply (dl_in H d x false K) in Hi. congruence.
  Qed.

  (** ** The server *)
  Variable G : bytes -> Prop.
  Hypothesis Hcf : collision_free H G.
  Hypothesis Hnz : forall x, G x -> H x <> zero_hash.
  Lemma server_inv m d k : server H limit max_depth size (fun _ => batch_ok H) G m d k ->
    tables_ok d /\ reach H limit G m k /\ (forall id, ~ In id (map fst (d_dirty d)) -> synced H d m id).
  Proof.
    intros Hs. induction Hs as [|m d k keep b d' _ IH Hb E|m d k cut s n _ IH E|m d k es _ IH|m d k max m' k' _ IH Hl Hm E|m d k es max m' k' _ IH Hr d1 Hl Hm E].
    - split; [apply start_ok|]. split; [constructor|]. intros id _. reflexivity.
    - destruct IH as (I1 & I2 & I3). destruct (ingest_ok keep b d d' I1 Hb E) as (O1 & O2 & O3). split; [exact O1|]. split; [exact I2|].
      intros id Hi. unfold synced, entry_of. rewrite O2. apply I3. intros Hx. apply Hi, O3, Hx.
    - destruct IH as (I1 & I2 & I3). destruct (prune_ok cut d s n I1 E) as (O1 & O2 & O3). split; [exact O1|]. split; [exact I2|].
      intros id Hi. unfold synced, entry_of. rewrite O2. apply I3. intros Hx. apply Hi, O3, Hx.
    - destruct IH as (I1 & I2 & I3). destruct (coalesce_ok d es I1) as (O1 & O2 & O3). split; [exact O1|]. split; [exact I2|].
      intros id Hi. assert (Hx : ~ In id (map fst (d_dirty d))) by (intros Hx; apply Hi, O3, Hx). unfold synced.
      rewrite (entry_same d _ id (ok_keyed _ I1) (ok_keyed _ O1) (O2 id Hx)). apply I3. exact Hx.
    - destruct IH as (I1 & I2 & I3). split; [exact I1|]. split; [|exact I3]. eapply reach_killed; eassumption.
    - destruct IH as (I1 & I2 & I3). destruct (coalesce_ok d es I1) as (O1 & O2 & O3). fold d1 in O1, O2, O3.
      assert (S1 : forall id, ~ In id (map fst (d_dirty d1)) -> synced H d1 m id).
      { intros id Hi. assert (Hx : ~ In id (map fst (d_dirty d))) by (intros Hx; apply Hi, O3, Hx). unfold synced.
        rewrite (entry_same d _ id (ok_keyed _ I1) (ok_keyed _ O1) (O2 id Hx)). apply I3. exact Hx. }
      pose proof (coalesced_all d es I1 Hr) as Hnp. fold d1 in Hnp. split; [|split].
      + destruct O1 as [K I Cl P Dp R]. constructor; try assumption.
        * destruct K as (K1 & K2 & K3 & K4 & K5). repeat split; try assumption. constructor.
        * intros x _. destruct (R x (Hnp x)) as (cs & ps & F). exists cs, ps. exact F.
      + replace k' with (snd (update_smt H limit max d1 k)) by (rewrite E; reflexivity). eapply reach_update; eassumption.
      + intros id _. apply (all_synced H Hlen G d1 m m' Hl S1).
  Qed.

  Theorem server_answers m d k rlimit name : server H limit max_depth size (fun _ => batch_ok H) G m d k -> ~ In (H name) (map fst (d_dirty d)) ->
    exists ids r, listing d (H name) ids /\ respond H d k rlimit name = Ok r /\
      match ids with
      | [] => verify_proof_by_domain H r = Ok (PoA, true)
      | _ => entry r = Some (mk_entry name (H name) (H (concat ids))) /\ verify_proof_by_domain H r = Ok (PoP, true)
      end.
  Proof.
    intros Hs Hn. destruct (server_inv m d k Hs) as (I1 & I2 & I3). specialize (I3 _ Hn).
    destruct (fresh_payload d (H name) I1) as (ids & L1 & L2 & L3).
    { apply (ok_rows d I1). intros Hi. apply Hn. apply in_map_iff. exists (H name, false). auto. }
    destruct (reach_on_disk H Hlen limit G Hcf Hnz m k I2) as [Hd Hroot]. unfold respond. rewrite Hroot. unfold synced in I3. rewrite L3 in I3. cbn [snd] in I3.
    destruct (client_honest H Hlen rlimit G Hcf (fun id => H (snd (entry_of d id))) m (new_trie k) name Hd) as (r & s & Hrun & Hv & _).
    { intros v Hv. rewrite Hv in I3. rewrite L3. cbn [snd]. destruct (concat ids); congruence. }
    exists ids, r. split; [exact L1|]. rewrite Hrun. split; [reflexivity|]. rewrite I3 in Hv.
    destruct ids as [|i ids]; [exact Hv|]. inversion L2; subst. destruct (concat (i :: ids)) as [|y p] eqn:Ec; [|exact Hv].
    cbn in Ec. apply app_eq_nil in Ec. destruct Ec as [-> _]. discriminate.
  Qed.

  (** ** Batches made from chains *)
  Variable not_after : cert -> Z.
  Lemma chain_row c ch r : In r (chain_rows H c ch) ->
    exists c0, In c0 (c :: ch) /\ row_id r = H (raw c0) /\ row_names r = [] /\ (parent_bytes r = [] \/ exists p, In p ch /\ parent_bytes r = H (raw p)).
  Proof.
    revert c. induction ch as [|p ch IH]; intros c; cbn [chain_rows].
    - intros [<-|[]]. exists c. cbn. auto.
    - intros [<-|Hr]; [exists c; split; [left; reflexivity|]; split; [reflexivity|]; split; [reflexivity|]; right; exists p; split; [left; reflexivity | reflexivity]|]. destruct (IH p Hr) as (c0 & C1 & C2 & C3 & C4). exists c0. split; [right; exact C1|]. split; [exact C2|]. split; [exact C3|].
      destruct C4 as [|(q & Q1 & Q2)]; [auto|]. right. exists q. split; [right; exact Q1 | exact Q2].
  Qed.
  Lemma chain_has c ch p : In p (c :: ch) -> exists r, In r (chain_rows H c ch) /\ row_id r = H (raw p).
  Proof.
    revert c. induction ch as [|q ch IH]; intros c; cbn [chain_rows].
    - intros [<-|[]]. eexists. split; [left; reflexivity | reflexivity].
    - intros [<-|Hp]; [eexists; split; [left; reflexivity | reflexivity]|]. destruct (IH q Hp) as (r & R1 & R2). exists r. split; [right; exact R1 | exact R2].
  Qed.
  Lemma leaf_row c ch r : In r (leaf_rows H c ch) ->
    (row_id r = H (raw c) /\ row_names r = cert_names c /\ (parent_bytes r = [] \/ exists p, In p ch /\ parent_bytes r = H (raw p))) \/
    exists c0, In c0 ch /\ row_id r = H (raw c0) /\ row_names r = [] /\ (parent_bytes r = [] \/ exists p, In p ch /\ parent_bytes r = H (raw p)).
  Proof.
    destruct ch as [|p ch]; cbn [leaf_rows]; [intros [<-|[]]; left; cbn; auto|]. intros [<-|Hr]; [left; split; [reflexivity|]; split; [reflexivity|]; right; exists p; split; [left; reflexivity | reflexivity]|]. right.
    destruct (chain_row p ch r Hr) as (c0 & C1 & C2 & C3 & C4). exists c0. split; [exact C1|]. split; [exact C2|]. split; [exact C3|].
    destruct C4 as [|(q & Q1 & Q2)]; [auto|]. right. exists q. split; [right; exact Q1 | exact Q2].
  Qed.
  Lemma leaf_has c ch p : In p ch -> exists r, In r (leaf_rows H c ch) /\ row_id r = H (raw p).
  Proof.
    destruct ch as [|q ch]; [intros []|]. intros Hp. destruct (chain_has q ch p Hp) as (r & R1 & R2). exists r. split; [right; exact R1 | exact R2].
  Qed.
  Lemma unfolded l r : In r (unfold_certs H l) <-> exists c ch, In (c, ch) l /\ In r (leaf_rows H c ch).
  Proof.
    pose proof (unfold_certs_perm H l) as Hp. split.
    - intros Hr. apply (Permutation_in _ Hp) in Hr. apply in_flat_map in Hr. destruct Hr as ([c ch] & H1 & H2). eauto.
    - intros (c & ch & H1 & H2). apply (Permutation_in _ (Permutation_sym Hp)). apply in_flat_map. exists (c, ch). auto.
  Qed.
  Variables U leaf : cert -> Prop.
  Hypothesis U_inj : forall c c', U c -> U c' -> H (raw c) = H (raw c') -> c = c'.
  (** Each association is that of a leaf with one of its names. *)
  Definition assoc_ok (d : db) : Prop := forall x i, In (x, i) (d_dc d) -> exists c n, U c /\ leaf c /\ In n (cert_names c) /\ x = H n /\ i = H (raw c).
  Lemma chain_batch_ok d l : assoc_ok d -> chains_ok U leaf l -> batch_ok H d (chain_batch H not_after l).
  Proof.
    intros Ha Hc. unfold batch_ok, chain_batch. cbn [b_names b_ids b_parents b_certs b_exps]. rewrite !map_length.
    split; [reflexivity|]. split; [reflexivity|]. split; [reflexivity|]. split; [reflexivity|]. split; [|split].
    - apply Forall_forall. intros i Hi. apply in_map_iff in Hi. destruct Hi as (r & <- & Hr). apply unfolded in Hr. destruct Hr as (c & ch & _ & Hr).
      destruct (leaf_row c ch r Hr) as [(-> & _)|(c0 & _ & -> & _)]; apply Hlen.
    - intros p Hp. apply in_map_iff in Hp. destruct Hp as (r & <- & Hr). apply unfolded in Hr. destruct Hr as (c & ch & Hl & Hr).
      assert (Hq : parent_bytes r = [] \/ exists p, In p ch /\ parent_bytes r = H (raw p)) by (destruct (leaf_row c ch r Hr) as [(_ & _ & Hq)|(c0 & _ & _ & _ & Hq)]; exact Hq).
      destruct Hq as [|(p & Hp & ->)]; [auto|]. right. left. destruct (leaf_has c ch p Hp) as (r' & R1 & R2). rewrite <- R2. apply in_map. apply unfolded. eauto.
    - intros x i Hi _ Hx. destruct (Ha x i Hx) as (c & n & A1 & A2 & A3 & -> & ->). apply in_map_iff in Hi. destruct Hi as (r & Er & Hr).
      pose proof Hr as Hr'. apply unfolded in Hr'. destruct Hr' as (c1 & ch & Hl & Hr1). destruct (Hc c1 ch Hl) as (U1 & L1 & P1).
      destruct (leaf_row c1 ch r Hr1) as [(R1 & R2 & _)|(c0 & C0 & R1 & _)].
      + assert (c1 = c) by (apply U_inj; congruence). subst c1. apply In_nth_error in Hr. destruct Hr as (j & Hj). exists j, (row_names r), n.
        rewrite !nth_error_map, Hj. cbn. rewrite R2, Er. auto.
      + exfalso. destruct (P1 c0 C0) as [U0 N0]. assert (c0 = c) by (apply U_inj; congruence). subst c0. auto.
  Qed.
  Lemma assoc_ingest d l d' : assoc_ok d -> chains_ok U leaf l -> ingest H true (chain_batch H not_after l) d = Ok d' -> assoc_ok d'.
  Proof.
    intros Ha Hc E. pose proof (chain_batch_ok d l Ha Hc) as (B1 & B2 & B3 & B4 & _). unfold ingest in E.
    set (b := chain_batch H not_after l) in *.
    assert (Hal : aligned (b_names b) (b_ids b) (b_parents b) (b_certs b) (b_exps b)) by (repeat split; assumption).
    rewrite (keep_existing_eq H d _ _ _ _ _ _ Hal) in E. destruct (insert_certs _ _ _ _ _ _) as [sc| |] eqn:Es; try discriminate.
    apply (f_equal (fun o => match o with Ok x => x | _ => d end)) in E. cbv beta iota in E. subst d'.
    set (mask := mask_of d (b_ids b)) in *. pose proof (mask_length d (b_ids b)) as Hm. fold mask in Hm.
    assert (Hk : length (kept mask (b_names b)) = length (kept mask (b_ids b))) by (apply kept_length; lia).
    destruct (ingest_effect H _ _ _ _ _ (kept (maskp_of H d (b_pols b)) (b_pols b)) _ d Hk Es) as (rows & ps & Er & Ep & ->).
    intros x i Hi. unfold all_stmts in Hi. cbn [load_dp load_pols load_domains load_dirty load_dc load_certs d_dc set_dp set_pols set_domains set_dirty set_dc set_certs] in Hi.
    apply pair_ignore_in in Hi. destruct Hi as [Hi|Hi]; [apply Ha; exact Hi|]. apply in_map_iff in Hi. destruct Hi as ([n i0] & Eq & Hi). cbn [fst snd] in Eq. injection Eq as <- <-.
    apply (name_pairs_in H _ _ _ Ep) in Hi. destruct Hi as (k & ns & N1 & N2 & N3).
    apply kept_nth_inv in N1. destruct N1 as (j & J1 & J2 & Jk). apply kept_nth_inv in N3. destruct N3 as (j' & J1' & J2' & Jk').
    assert (j' = j).
    { destruct (Nat.lt_trichotomy j j') as [Hj|[Hj|Hj]]; [exfalso | congruence | exfalso].
      - assert (new_before mask j < new_before mask j') by (apply new_before_lt; assumption). lia.
      - assert (new_before mask j' < new_before mask j) by (apply new_before_lt; assumption). lia. }
    subst j'. unfold b, chain_batch in J2, J2'. cbn [b_names b_ids] in J2, J2'. rewrite nth_error_map in J2, J2'.
    destruct (nth_error (unfold_certs H l) j) as [r|] eqn:Ej; [|discriminate]. cbn in J2, J2'. injection J2 as <-. injection J2' as <-.
    apply nth_error_In in Ej. apply unfolded in Ej. destruct Ej as (c & ch & Hl & Hr). destruct (Hc c ch Hl) as (U1 & L1 & P1).
    destruct (leaf_row c ch r Hr) as [(R1 & R2 & _)|(c0 & _ & _ & R2 & _)]; rewrite R2 in N2; [|destruct N2].
    exists c, n. rewrite R1. auto.
  Qed.
  Lemma chain_server m d k : server H limit max_depth size (chain_batches H not_after U leaf) G m d k ->
    server H limit max_depth size (fun _ => batch_ok H) G m d k /\ assoc_ok d.
  Proof.
    intros Hs. induction Hs as [|m d k keep b d' _ IH Hb E|m d k cut s n _ IH E|m d k es _ IH|m d k max m' k' _ IH Hl Hm E|m d k es max m' k' _ IH Hr d1 Hl Hm E].
    - split; [constructor | intros ? ? []].
    - destruct IH as (I1 & I2). destruct Hb as (-> & l & Hl & ->). split; [|eapply assoc_ingest; eassumption].
      exact (server_ingest H limit max_depth size (fun _ => batch_ok H) G m d k true _ d' I1 (chain_batch_ok d l I2 Hl) E).
    - destruct IH as (I1 & I2). split; [eapply server_prune; eassumption|]. destruct (stmts_shape _ _ _ _ E) as (gone & touched & -> & _).
      destruct n as [|[|n]]; cbn [firstn run fold_left]; [exact I2 | exact I2|]. rewrite firstn_nil. exact I2.
    - destruct IH as (I1 & I2). split; [apply server_coalesce; exact I1|]. destruct (server_inv m d k I1) as (Ok1 & _).
      pose proof (exec_inv H max_depth size size_pos d (ok_keyed d Ok1) es (start d) (start_inv H max_depth d (ok_keyed d Ok1))) as (_ & (_ & _ & S3 & _) & _).
      unfold assoc_ok. rewrite S3. exact I2.
    - destruct IH as (I1 & I2). split; [exact (server_killed H limit max_depth size _ G m d k max m' k' I1 Hl Hm E) | exact I2].
    - destruct IH as (I1 & I2). split; [exact (server_update H limit max_depth size _ G m d k es max m' k' I1 Hr Hl Hm E)|]. destruct (server_inv m d k I1) as (Ok1 & _).
      pose proof (exec_inv H max_depth size size_pos d (ok_keyed d Ok1) es (start d) (start_inv H max_depth d (ok_keyed d Ok1))) as (_ & (_ & _ & S3 & _) & _).
      unfold assoc_ok. cbn [cleanup d_dc set_dirty]. unfold d1. rewrite S3. exact I2.
  Qed.
End Rounds.
