(** Proofs: ingestion of certificates and policies, with crashes between statements and repetitions. *)
From Verif Require Import Base BaseLemmas UtilModel DbModel DbTables.

(** ** Growth of the database *)
Definition ids_of (t : list cert_row) : list bytes := map cr_id t.
Definition le_db (d d' : db) : Prop :=
  incl (ids_of (d_certs d)) (ids_of (d_certs d')) /\ incl (ids_of (d_pols d)) (ids_of (d_pols d')) /\
  (forall x, In (x, false) (d_dirty d) -> In (x, false) (d_dirty d')) /\
  incl (map fst (d_domains d)) (map fst (d_domains d')) /\ incl (d_dc d) (d_dc d') /\ incl (d_dp d) (d_dp d').
Lemma le_db_refl d : le_db d d. Proof. repeat split; try apply incl_refl. auto. Qed.
Lemma le_db_trans a b c : le_db a b -> le_db b c -> le_db a c.
Proof. intros (A1 & A2 & A3 & A4 & A5 & A6) (B1 & B2 & B3 & B4 & B5 & B6). repeat split; try (eapply incl_tran; eassumption). auto. Qed.

Lemma pending_after l d x : In (x, false) (d_dirty (load_dirty l d)) <-> In (x, false) (d_dirty d) \/ In x l.
Proof.
  unfold load_dirty. cbn [d_dirty set_dirty]. set (rows := map (fun i => (i, false)) l).
  assert (Hr : forall r, In r rows -> snd r = false) by (intros r Hr; apply in_map_iff in Hr; destruct Hr as (? & <- & _); reflexivity).
  assert (Hk : map fst rows = l) by (unfold rows; rewrite map_map; apply map_id).
  split.
  - intros Hx. apply (replace_from fst beqb beqb_eq fst_key fst_key_ok) in Hx. destruct Hx as [[Hx _]|Hx]; [left; exact Hx | right].
    rewrite <- Hk. apply (in_map fst) in Hx. exact Hx.
  - intros Hx. destruct (in_dec (list_eq_dec byte_eq_dec) x l) as [Hi|Hi].
    + rewrite <- Hk in Hi. destruct (replace_has fst beqb beqb_eq fst_key fst_key_ok rows (d_dirty d) x Hi) as ([a b] & H1 & H2 & H3).
      cbn in H2. subst a. pose proof (Hr _ H1) as Hb. cbn in Hb. subst b. exact H3.
    + destruct Hx as [Hx|]; [|tauto]. apply (replace_keeps fst beqb beqb_eq fst_key fst_key_ok); [exact Hx|]. rewrite Hk. exact Hi.
Qed.
Lemma load_certs_ids rows d x : In x (ids_of (d_certs (load_certs rows d))) <-> In x (ids_of (d_certs d)) \/ In x (ids_of rows).
Proof. apply (ignore_keys cr_id beqb beqb_eq cert_key cert_key_ok). Qed.
Lemma load_domains_ids rows d x : In x (map fst (d_domains (load_domains rows d))) <-> In x (map fst (d_domains d)) \/ In x (map fst rows).
Proof. apply (ignore_keys fst beqb beqb_eq fst_key fst_key_ok). Qed.
Lemma load_pols_ids rows d x : In x (ids_of (d_pols (load_pols rows d))) <-> In x (ids_of (d_pols d)) \/ In x (ids_of rows).
Proof.
  cbn. unfold ids_of. split; intros Hx.
  - apply in_map_iff in Hx. destruct Hx as (r & <- & Hr). apply (replace_from cr_id beqb beqb_eq cert_key cert_key_ok) in Hr.
    destruct Hr as [[Hr _]|Hr]; [left | right]; apply in_map; exact Hr.
  - destruct (in_dec (list_eq_dec byte_eq_dec) x (map cr_id rows)) as [Hi|Hi].
    + destruct (replace_has cr_id beqb beqb_eq cert_key cert_key_ok rows (d_pols d) x Hi) as (r & _ & <- & Hr). apply in_map. exact Hr.
    + destruct Hx as [Hx|]; [|tauto]. apply in_map_iff in Hx. destruct Hx as (r & <- & Hr). apply in_map.
      apply (replace_keeps cr_id beqb beqb_eq cert_key cert_key_ok); assumption.
Qed.
Ltac grow := repeat split; try apply incl_refl; auto.
Lemma le_certs rows d : le_db d (load_certs rows d).
Proof. grow. intros x Hx. apply load_certs_ids. tauto. Qed.
Lemma le_dirty l d : le_db d (load_dirty l d).
Proof. grow. intros x Hx. apply pending_after. tauto. Qed.
Lemma le_domains rows d : le_db d (load_domains rows d).
Proof. grow. intros x Hx. apply load_domains_ids. tauto. Qed.
Lemma le_dc rows d : le_db d (load_dc rows d).
Proof. grow. intros x Hx. apply pair_ignore_in. tauto. Qed.
Lemma le_pols rows d : le_db d (load_pols rows d).
Proof. grow. intros x Hx. apply load_pols_ids. tauto. Qed.
Lemma le_dp rows d : le_db d (load_dp rows d).
Proof. grow. intros x Hx. apply pair_ignore_in. tauto. Qed.

Definition growing (f : db -> db) : Prop := forall d, le_db d (f d).
Lemma run_app a b d : run (a ++ b) d = run b (run a d).
Proof. unfold run. apply fold_left_app. Qed.
Lemma run_growing s : Forall growing s -> forall d, le_db d (run s d).
Proof.
  induction s as [|f s IH]; intros Hg d; [apply le_db_refl|]. inversion Hg; subst. cbn. eapply le_db_trans; [apply H1 | apply IH; assumption].
Qed.

Section Ingest.
  Variable H : bytes -> bytes.

  (** ** The statements of an ingestion *)
  Definition pairs (names : list (list bytes)) (ids : list bytes) : list (bytes * bytes) :=
    flat_map (fun p => map (fun n => (n, snd p)) (fst p)) (combine names ids).
  Lemma name_pairs_in names : forall ids ps, name_pairs names ids = Ok ps ->
    forall n i, In (n, i) ps <-> exists k ns, nth_error names k = Some ns /\ In n ns /\ nth_error ids k = Some i.
  Proof.
    induction names as [|ns names IH]; intros ids ps E n i; cbn [name_pairs] in E.
    - injection E as <-. cbn. split; [tauto|]. intros ([|k] & ns & E & _); discriminate.
    - destruct ids as [|x ids].
      + destruct ns; [|discriminate]. rewrite (IH _ _ E). split.
        * intros (k & ns & _ & _ & E3). destruct k; discriminate.
        * intros (k & ns & _ & _ & E3). destruct k; discriminate.
      + destruct (name_pairs names ids) as [qs| |] eqn:Eq; try discriminate. injection E as <-. rewrite in_app_iff, in_map_iff, (IH _ _ Eq). split.
        * intros [(m & E & Hm)|(k & ms & E1 & E2 & E3)]; [injection E as -> ->; exists 0, ns; auto | exists (S k), ms; auto].
        * intros ([|k] & ms & E1 & E2 & E3); cbn in E1, E3.
          -- injection E1 as ->. injection E3 as ->. left. eauto.
          -- right. eauto.
  Qed.
  Lemma cert_rows_ids ids : forall parents exps payloads rows, cert_rows ids parents exps payloads = Ok rows -> ids_of rows = ids.
  Proof.
    induction ids as [|i ids IH]; intros [|p ps] [|e es] [|y ys] rows E; cbn in E; try (injection E as <-; reflexivity); try discriminate.
    destruct (cert_rows ids ps es ys) eqn:Er; try discriminate. injection E as <-. cbn. f_equal. eapply IH. exact Er.
  Qed.
  Lemma cert_rows_nth ids : forall parents exps payloads rows, cert_rows ids parents exps payloads = Ok rows ->
    forall k i, nth_error ids k = Some i -> exists p e y, nth_error parents k = Some p /\ nth_error exps k = Some e /\ nth_error payloads k = Some y /\
      nth_error rows k = Some (mk_cr i p e y).
  Proof.
    induction ids as [|j ids IH]; intros parents exps payloads rows E k i Hk; [destruct k; discriminate|]. cbn in E.
    destruct parents as [|p ps], exps as [|e es], payloads as [|y ys]; try discriminate.
    destruct (cert_rows ids ps es ys) eqn:Er; try discriminate. injection E as <-.
    destruct k as [|k]; cbn in Hk |- *; [injection Hk as ->; repeat eexists|]. eapply IH; eassumption.
  Qed.
  Lemma cert_rows_total ids : forall parents exps payloads, length ids <= length parents -> length ids <= length exps -> length ids <= length payloads ->
    exists rows, cert_rows ids parents exps payloads = Ok rows.
  Proof.
    induction ids as [|i ids IH]; intros [|p ps] [|e es] [|y ys] H1 H2 H3; cbn in *; try lia; try (eexists; reflexivity).
    destruct (IH ps es ys) as (rows & ->); try lia. eexists; reflexivity.
  Qed.
  Lemma name_pairs_total names : forall ids, length names <= length ids -> exists ps, name_pairs names ids = Ok ps.
  Proof.
    induction names as [|ns names IH]; intros [|i ids] Hl; cbn in Hl; try lia; try (eexists; reflexivity).
    cbn. destruct (IH ids) as (ps & ->); [lia|]. eexists; reflexivity.
  Qed.

  Lemma insert_certs_shape n i p e y sc : insert_certs H n i p e y = Ok sc -> i <> [] ->
    exists rows rest, cert_rows i p e y = Ok rows /\ sc = load_certs rows :: rest.
  Proof.
    unfold insert_certs. destruct i as [|i0 i]; [congruence|]. destruct (cert_rows (i0 :: i) p e y) as [rows| |]; try discriminate.
    destruct (name_pairs _ _); try discriminate. intros E _. injection E as <-. eauto.
  Qed.

  (** A certificate is in place: stored, and all its names are associated with it, known, and pending. *)
  Definition linked (d : db) (names : list (list bytes)) (k : nat) (id : bytes) : Prop :=
    forall ns n, nth_error names k = Some ns -> In n ns -> In (H n, id) (d_dc d) /\ In (H n) (map fst (d_domains d)).
  Definition flagged (d : db) (names : list (list bytes)) (k : nat) : Prop :=
    forall ns n, nth_error names k = Some ns -> In n ns -> In (H n, false) (d_dirty d).
  Definition certs_in_place (d : db) (names : list (list bytes)) (ids : list bytes) : Prop :=
    forall k id, nth_error ids k = Some id -> In id (map cr_id (d_certs d)) /\ linked d names k id /\ flagged d names k.
  Definition pols_in_place (d : db) (pols : list (bytes * bytes)) : Prop :=
    forall dom y, In (dom, y) pols ->
      In (H y) (map cr_id (d_pols d)) /\ In (H dom, H y) (d_dp d) /\ In (H dom) (map fst (d_domains d)) /\ In (H dom, false) (d_dirty d).
  Lemma linked_le d d' names k id : le_db d d' -> linked d names k id -> linked d' names k id.
  Proof. intros (_ & _ & _ & H4 & H5 & _) Hl ns n Hk Hn. destruct (Hl ns n Hk Hn). split; [apply H5 | apply H4]; assumption. Qed.
  Lemma flagged_le d d' names k : le_db d d' -> flagged d names k -> flagged d' names k.
  Proof. intros (_ & _ & H3 & _) Hl ns n Hk Hn. apply H3. eapply Hl; eassumption. Qed.
  Lemma certs_le d d' names ids : le_db d d' -> certs_in_place d names ids -> certs_in_place d' names ids.
  Proof.
    intros Hle Hc k id Hk. destruct (Hc k id Hk) as (H1 & H2 & H3). split; [apply Hle; exact H1|]. split; [eapply linked_le; eassumption | eapply flagged_le; eassumption].
  Qed.
  Lemma pols_le d d' pols : le_db d d' -> pols_in_place d pols -> pols_in_place d' pols.
  Proof.
    intros (A1 & A2 & A3 & A4 & A5 & A6) Hp dom y Hy. destruct (Hp dom y Hy) as (B1 & B2 & B3 & B4). auto.
  Qed.

  Lemma insert_certs_growing names ids parents exps payloads s : insert_certs H names ids parents exps payloads = Ok s -> Forall growing s.
  Proof.
    unfold insert_certs. destruct ids; [intros E; injection E as <-; constructor|]. destruct (cert_rows _ _ _ _); try discriminate.
    destruct (name_pairs _ _); try discriminate. intros E. injection E as <-.
    constructor; [intros d; apply le_certs|]. constructor; [intros d; apply le_dirty|]. constructor; [intros d; apply le_domains|].
    constructor; [intros d; apply le_dc | constructor].
  Qed.
  Lemma insert_policies_growing pols : Forall growing (insert_policies H pols).
  Proof.
    unfold insert_policies. destruct pols; [constructor|]. constructor; [intros d; apply le_dirty|]. constructor; [intros d; apply le_domains|].
    constructor; [intros d; apply le_pols|]. constructor; [intros d; apply le_dp | constructor].
  Qed.
  Lemma insert_certs_done names ids parents exps payloads s d : insert_certs H names ids parents exps payloads = Ok s ->
    certs_in_place (run s d) names ids.
  Proof.
    unfold insert_certs. destruct ids as [|i0 ids']; [intros _ k id Hk; destruct k; discriminate|]. set (ids := i0 :: ids').
    destruct (cert_rows ids parents exps payloads) as [rows| |] eqn:Er; try discriminate. destruct (name_pairs names ids) as [ps| |] eqn:Ep; try discriminate.
    intros E. injection E as <-. intros k id Hk. cbn [run fold_left].
    set (d1 := load_certs rows d). set (d2 := load_dirty _ d1). set (d3 := load_domains _ d2).
    assert (Hps : forall ns n, nth_error names k = Some ns -> In n ns -> In (n, id) ps) by (intros ns n H1 H2; apply (name_pairs_in _ _ _ Ep); eauto).
    split; [|split].
    - change (d_certs _) with (d_certs d1). apply load_certs_ids. right. rewrite (cert_rows_ids _ _ _ _ _ Er). eapply nth_error_In. exact Hk.
    - intros ns n Hns Hn. split.
      + apply pair_ignore_in. right. apply (in_map (fun p => (H (fst p), snd p))) with (x := (n, id)). eapply Hps; eassumption.
      + change (d_domains _) with (d_domains d3). apply load_domains_ids. right. rewrite map_map.
        apply (in_map (fun p => fst (H (fst p), fst p))) with (x := (n, id)). eapply Hps; eassumption.
    - intros ns n H1 H2. change (d_dirty _) with (d_dirty d2). apply pending_after. right.
      apply (in_map (fun p => H (fst p))) with (x := (n, id)). eapply Hps; eassumption.
  Qed.
  Lemma insert_policies_done pols d : pols_in_place (run (insert_policies H pols) d) pols.
  Proof.
    unfold insert_policies. destruct pols as [|p0 pols']; [intros ? ? []|]. set (pols := p0 :: pols'). cbn [run fold_left].
    set (d1 := load_dirty _ d). set (d2 := load_domains _ d1). set (d3 := load_pols _ d2).
    intros dom y Hy. repeat split.
    - change (d_pols _) with (d_pols d3). apply load_pols_ids. right. unfold ids_of. rewrite map_map.
      apply (in_map (fun p => cr_id (mk_cr (H (snd p)) [] far_future (snd p)))) with (x := (dom, y)). exact Hy.
    - apply pair_ignore_in. right. apply (in_map (fun p => (H (fst p), H (snd p)))) with (x := (dom, y)). exact Hy.
    - change (d_domains _) with (d_domains d2). apply load_domains_ids. right. rewrite map_map.
      apply (in_map (fun p => fst (H (fst p), fst p))) with (x := (dom, y)). exact Hy.
    - change (d_dirty _) with (d_dirty d1). apply pending_after. right. apply (in_map (fun p => H (fst p))) with (x := (dom, y)). exact Hy.
  Qed.

  (** ** UpdateWithOverwrite with crashes *)
  Theorem overwrite_done names ids parents certs exps pols s :
    overwrite H names ids parents certs exps pols = Ok s ->
    forall crashes d, let d' := run s (fold_left (fun d k => run (firstn k s) d) crashes d) in
    certs_in_place d' names ids /\ pols_in_place d' pols /\ le_db d d'.
  Proof.
    unfold overwrite. destruct (insert_certs _ _ _ _ _ _) as [sc| |] eqn:E; try discriminate. intros Es. injection Es as <-. intros crashes d.
    set (d' := run _ _).
    pose proof (insert_certs_growing _ _ _ _ _ _ E) as Hg. pose proof (insert_policies_growing pols) as Hgp.
    split; [|split].
    - unfold d'. rewrite run_app. eapply certs_le; [apply run_growing; exact Hgp|]. eapply insert_certs_done. exact E.
    - unfold d'. rewrite run_app. apply insert_policies_done.
    - assert (Hall : Forall growing (sc ++ insert_policies H pols)) by (apply Forall_app; auto).
      unfold d'. clear d'. revert d. induction crashes as [|k ks IH]; intros d; cbn [fold_left]; [apply run_growing; exact Hall|].
      eapply le_db_trans; [|apply IH]. apply run_growing. rewrite <- (firstn_skipn k) in Hall. apply Forall_app in Hall. tauto.
  Qed.

  (** ** UpdateWithKeepExisting *)
  Lemma falses_kept {A} (dflt : A) mask : forall from (l : list A), length l = from + length mask ->
    map (fun j => nth j l dflt) (falses mask from) = kept mask (skipn from l).
  Proof.
    induction mask as [|v mask IH]; intros from l Hl; cbn [falses]; [cbn; reflexivity|]. cbn in Hl.
    rewrite (skipn_cons_nth from l dflt) by lia. rewrite kept_cons. destruct v; [apply IH; lia|]. cbn [map]. f_equal. apply IH. lia.
  Qed.
  Definition step4 (certs : list bytes) : nat -> nat -> list bytes * list (list bytes) * list bytes * list bytes -> list bytes * list (list bytes) * list bytes * list bytes :=
    fun to from '(i, n, p, y) => (move [] to from i, move [] to from n, move [] to from p, y ++ [nth from certs []]).
  Lemma rwf_tuple certs mask : forall from to i n p y,
    run_when_false_from mask from to (step4 certs) (i, n, p, y) =
    ((fst (run_when_false_from mask from to (move []) i), fst (run_when_false_from mask from to (move []) n),
      fst (run_when_false_from mask from to (move []) p), y ++ map (fun j => nth j certs []) (falses mask from)), to + length (falses mask from)).
  Proof.
    induction mask as [|v mask IH]; intros from to i n p y; cbn [run_when_false_from falses].
    - cbn. rewrite app_nil_r, Nat.add_0_r. reflexivity.
    - destruct v; [apply IH|]. cbn [step4]. rewrite IH. cbn [map length]. rewrite <- app_assoc. cbn [app]. f_equal. lia.
  Qed.
  Lemma kept_of_move {A} (dflt : A) mask l n : length l = length mask -> n = length (kept mask l) ->
    firstn n (fst (run_when_false_from mask 0 0 (move dflt) l)) = kept mask l.
  Proof.
    intros Hl ->. destruct (rwf_move dflt mask l Hl) as (E1 & E2 & _). unfold run_when_false in *. rewrite <- E2. exact E1.
  Qed.
  Lemma check_pols_length t ids : length (check_pols_exist t ids) = length ids.
  Proof.
    unfold check_pols_exist, put, check_block. rewrite !app_length, skipn_length, repeat_length, !firstn_length, repeat_length, map_length.
    generalize 1024. intros. lia.
  Qed.
  Definition mask_of (d : db) (ids : list bytes) : list bool := check_certs_exist (d_certs d) batch_size ids.
  Definition maskp_of (d : db) (pols : list (bytes * bytes)) : list bool := check_pols_exist (d_pols d) (map (fun p => H (snd p)) pols).
  Lemma batch_pos : 0 < batch_size. Proof. unfold batch_size. lia. Qed.
  Definition aligned (names : list (list bytes)) (ids parents certs : list bytes) (exps : list Z) : Prop :=
    length names = length ids /\ length parents = length ids /\ length certs = length ids /\ length exps = length ids.
  Lemma keep_existing_eq d names ids parents certs exps pols : aligned names ids parents certs exps ->
    keep_existing H d names ids parents certs exps pols =
    match insert_certs H (kept (mask_of d ids) names) (kept (mask_of d ids) ids) (kept (mask_of d ids) parents) exps (kept (mask_of d ids) certs) with
    | Ok s => Ok (s ++ insert_policies H (kept (maskp_of d pols) pols))
    | r => r
    end.
  Proof.
    intros (Hn & Hp & Hc & He). unfold keep_existing. cbv zeta. fold (mask_of d ids).
    match goal with |- context [run_when_false ?m ?f (ids, names, parents, [])] =>
      change (run_when_false m f (ids, names, parents, [])) with (run_when_false_from m 0 0 (step4 certs) (ids, names, parents, [])) end.
    rewrite rwf_tuple.
    assert (Hm : length (mask_of d ids) = length ids) by (apply check_length; apply batch_pos).
    rewrite (falses_kept [] _ 0 certs) by (rewrite Hm; exact Hc). cbn [app skipn].
    rewrite !kept_of_move; try (rewrite Hm; assumption); try reflexivity;
      try (symmetry; exact Hm); try (apply kept_length; first [exact (eq_sym Hm) | exact (eq_trans Hc (eq_sym Hm)) | exact (eq_trans Hp (eq_sym Hm)) | exact (eq_trans Hn (eq_sym Hm))]).
    destruct (insert_certs _ _ _ _ _ _); try reflexivity. fold (maskp_of d pols).
    assert (Hmp : length pols = length (maskp_of d pols)) by (unfold maskp_of; rewrite check_pols_length, map_length; reflexivity).
    destruct (rwf_move ([], []) (maskp_of d pols) pols Hmp) as (E1 & _ & _).
    change (fun (to from : nat) (p : list (bytes * bytes)) => move ([], []) to from p) with (@move (bytes * bytes) ([], [])).
    destruct (run_when_false (maskp_of d pols) (move ([], [])) pols) as [l n]. cbn [fst snd] in E1. rewrite E1. reflexivity.
  Qed.
  Lemma insert_certs_total names ids parents exps payloads : length names <= length ids -> length ids <= length parents -> length ids <= length exps ->
    length ids <= length payloads -> exists s, insert_certs H names ids parents exps payloads = Ok s.
  Proof.
    intros H1 H2 H3 H4. unfold insert_certs. destruct ids as [|i ids]; [eexists; reflexivity|]. destruct (cert_rows_total (i :: ids) parents exps payloads H2 H3 H4) as (rows & ->).
    destruct (name_pairs_total names (i :: ids) H1) as (ps & ->). eexists; reflexivity.
  Qed.
  Lemma kept_le {A} mask : forall l : list A, length (kept mask l) <= length l.
  Proof. induction mask as [|v mask IH]; intros [|x l]; try (cbn; lia). rewrite kept_cons. specialize (IH l). destruct v; cbn [length]; lia. Qed.
  Lemma mask_length d ids : length (mask_of d ids) = length ids.
  Proof. apply check_length. apply batch_pos. Qed.
  Theorem keep_existing_total d names ids parents certs exps pols : aligned names ids parents certs exps ->
    exists s, keep_existing H d names ids parents certs exps pols = Ok s.
  Proof.
    intros Ha. rewrite (keep_existing_eq _ _ _ _ _ _ _ Ha). destruct Ha as (Hn & Hp & Hc & He). pose proof (mask_length d ids) as Hm.
    destruct (insert_certs_total (kept (mask_of d ids) names) (kept (mask_of d ids) ids) (kept (mask_of d ids) parents) exps (kept (mask_of d ids) certs)) as (s & ->).
    - rewrite (kept_length _ names ids); lia.
    - rewrite (kept_length _ parents ids); lia.
    - pose proof (kept_le (mask_of d ids) ids). lia.
    - rewrite (kept_length _ certs ids); lia.
    - eexists; reflexivity.
  Qed.

  (** The position of an element in the compacted list *)
  Definition new_before (mask : list bool) (i : nat) : nat := length (filter negb (firstn i mask)).
  Lemma kept_nth {A} mask : forall (l : list A) i x, nth_error mask i = Some false -> nth_error l i = Some x -> nth_error (kept mask l) (new_before mask i) = Some x.
  Proof.
    induction mask as [|v mask IH]; intros l i x Hm Hl; [destruct i; discriminate|]. destruct l as [|y l]; [destruct i; discriminate|].
    rewrite kept_cons. destruct i as [|i]; cbn in Hm, Hl.
    - injection Hm as ->. injection Hl as ->. reflexivity.
    - specialize (IH l i x Hm Hl). unfold new_before in *. cbn [firstn filter]. destruct v; cbn [negb length]; exact IH.
  Qed.
  Lemma kept_nth_inv {A} mask : forall (l : list A) k x, nth_error (kept mask l) k = Some x -> exists i, nth_error mask i = Some false /\ nth_error l i = Some x /\ k = new_before mask i.
  Proof.
    induction mask as [|v mask IH]; intros l k x E; [destruct k; discriminate|]. destruct l as [|y l]; [destruct k; discriminate|].
    rewrite kept_cons in E. destruct v.
    - destruct (IH l k x E) as (i & H1 & H2 & H3). exists (S i). auto.
    - destruct k as [|k]; cbn in E; [injection E as ->; exists 0; auto|]. destruct (IH l k x E) as (i & H1 & H2 & H3). exists (S i). split; [exact H1|]. split; [exact H2|].
      unfold new_before in *. cbn. congruence.
  Qed.

  Section Keep.
    Variables (names : list (list bytes)) (ids parents certs : list bytes) (exps : list Z) (pols : list (bytes * bytes)).
    Hypothesis al : aligned names ids parents certs exps.
    Let keep (d : db) := keep_existing H d names ids parents certs exps pols.

    Lemma keep_split d s : keep d = Ok s -> exists sc, s = sc ++ insert_policies H (kept (maskp_of d pols) pols) /\
      insert_certs H (kept (mask_of d ids) names) (kept (mask_of d ids) ids) (kept (mask_of d ids) parents) exps (kept (mask_of d ids) certs) = Ok sc.
    Proof.
      unfold keep. rewrite (keep_existing_eq _ _ _ _ _ _ _ al). destruct (insert_certs _ _ _ _ _ _) as [sc| |]; try discriminate. intros E. injection E as <-. eauto.
    Qed.
    Lemma keep_growing d s : keep d = Ok s -> Forall growing s.
    Proof.
      intros E. destruct (keep_split d s E) as (sc & -> & Ec). apply Forall_app. split; [eapply insert_certs_growing; exact Ec | apply insert_policies_growing].
    Qed.
    Lemma insert_policies_frame p d : let d' := run (insert_policies H p) d in d_certs d' = d_certs d /\ d_dc d' = d_dc d.
    Proof. unfold insert_policies. destruct p; split; reflexivity. Qed.

    (** The repetition of an ingestion, each time possibly cut short. *)
    Inductive ingests : db -> db -> Prop :=
    | ing_refl d : ingests d d
    | ing_step d d' s k : keep d = Ok s -> ingests (run (firstn k s) d) d' -> ingests d d'.
    Lemma ingests_le d d' : ingests d d' -> le_db d d'.
    Proof.
      intros Hi. induction Hi as [|d d' s k E _ IH]; [apply le_db_refl|]. eapply le_db_trans; [|exact IH]. apply run_growing.
      pose proof (keep_growing d s E) as Hg. rewrite <- (firstn_skipn k) in Hg. apply Forall_app in Hg. tauto.
    Qed.

    (** All certificates seen: nothing is inserted any more. *)
    Lemma mask_all_true d : length ids mod batch_size <> 0 -> incl ids (ids_of (d_certs d)) -> forall A (l : list A), kept (mask_of d ids) l = [].
    Proof.
      intros Hm Hi A l. destruct (kept (mask_of d ids) l) as [|x r] eqn:E; [reflexivity|]. exfalso.
      assert (Hx : In x (kept (mask_of d ids) l)) by (rewrite E; left; reflexivity). apply kept_in in Hx. destruct Hx as (i & E1 & _).
      destruct (nth_error ids i) as [id|] eqn:Ei.
      - destruct (proj2 (check_exact (d_certs d) batch_size ids batch_pos (or_introl Hm)) i id Ei) as (v & Ev & Hv).
        unfold mask_of in E1. rewrite E1 in Ev. injection Ev as <-. apply nth_error_In in Ei. apply Hi in Ei. apply Hv in Ei. discriminate.
      - apply nth_error_None in Ei. assert (Hlt : i < length (mask_of d ids)) by (apply nth_error_Some; congruence). rewrite mask_length in Hlt. lia.
    Qed.
    Lemma run_firstn_pols k p d : d_dc (run (firstn k (insert_policies H p)) d) = d_dc d /\ d_certs (run (firstn k (insert_policies H p)) d) = d_certs d.
    Proof. unfold insert_policies. destruct p; [rewrite firstn_nil; split; reflexivity|]. destruct k as [|[|[|[|k]]]]; cbn; rewrite ?firstn_nil; split; reflexivity. Qed.
    Lemma stuck d : length ids mod batch_size <> 0 -> incl ids (ids_of (d_certs d)) -> forall d', ingests d d' -> d_dc d' = d_dc d.
    Proof.
      intros Hm Hi d' Hd. induction Hd as [|d d' s k E _ IH]; [reflexivity|]. destruct (keep_split d s E) as (sc & -> & Ec).
      rewrite !(mask_all_true d Hm Hi) in Ec. cbn in Ec. injection Ec as <-. cbn [app] in *.
      destruct (run_firstn_pols k (kept (maskp_of d pols) pols) d) as [E1 E2]. rewrite IH; [exact E1|]. rewrite E2. exact Hi.
    Qed.
    Theorem keep_crash_loses d s d' : length ids mod batch_size <> 0 -> ids <> [] -> keep d = Ok s ->
      (forall id, In id ids -> ~ In id (ids_of (d_certs d))) ->
      ingests (run (firstn 1 s) d) d' -> incl ids (ids_of (d_certs d')) /\ d_dc d' = d_dc d.
    Proof.
      intros Hm Hne E Hnew Hi. destruct (keep_split d s E) as (sc & -> & Ec).
      assert (Hall : forall A (l : list A), length l = length ids -> kept (mask_of d ids) l = l).
      { intros A l Hl. assert (Hf : forall v, In v (mask_of d ids) -> v = false).
        { intros v Hv. apply In_nth_error in Hv. destruct Hv as (i & Ev). destruct v; [|reflexivity]. exfalso.
          destruct (nth_error ids i) as [id|] eqn:Ei.
          - apply (Hnew id); [eapply nth_error_In; exact Ei|]. eapply check_sound; [apply batch_pos | exact Ei | exact Ev].
          - apply nth_error_None in Ei. assert (i < length (mask_of d ids)) by (apply nth_error_Some; congruence). rewrite mask_length in *. lia. }
        apply kept_all_false; [exact Hf|]. rewrite mask_length. exact Hl. }
      destruct al as (Hn & Hp & Hc & He). rewrite !Hall in Ec by (assumption || reflexivity).
      destruct (insert_certs_shape _ _ _ _ _ _ Ec Hne) as (rows & rest & Er & ->). cbn [app firstn run fold_left] in Hi.
      assert (Hin : incl ids (ids_of (d_certs (load_certs rows d)))) by (intros x Hx; apply load_certs_ids; right; rewrite (cert_rows_ids _ _ _ _ _ Er); exact Hx).
      split.
      - eapply incl_tran; [exact Hin|]. apply (ingests_le _ _ Hi).
      - rewrite (stuck _ Hm Hin _ Hi). reflexivity.
    Qed.

    (** Certificates already stored are linked with their names. *)
    Definition old_linked (d : db) : Prop := forall k id, nth_error ids k = Some id -> In id (ids_of (d_certs d)) -> linked d names k id.
    Lemma kept_names_nth d k id ns : nth_error (mask_of d ids) k = Some false -> nth_error ids k = Some id -> nth_error names k = Some ns ->
      exists j, nth_error (kept (mask_of d ids) ids) j = Some id /\ nth_error (kept (mask_of d ids) names) j = Some ns.
    Proof. intros H1 H2 H3. exists (new_before (mask_of d ids) k). split; apply kept_nth; assumption. Qed.
    Lemma keep_certs_done d sc :
      insert_certs H (kept (mask_of d ids) names) (kept (mask_of d ids) ids) (kept (mask_of d ids) parents) exps (kept (mask_of d ids) certs) = Ok sc ->
      old_linked d -> forall k id, nth_error ids k = Some id ->
      In id (ids_of (d_certs (run sc d))) /\ linked (run sc d) names k id /\ (~ In id (ids_of (d_certs d)) -> flagged (run sc d) names k).
    Proof.
      intros Ec Hold k id Hk. pose proof (insert_certs_growing _ _ _ _ _ _ Ec) as Hg.
      destruct (nth_error (mask_of d ids) k) as [[|]|] eqn:Em.
      - assert (Hin : In id (ids_of (d_certs d))) by (eapply check_sound; [apply batch_pos | exact Hk | exact Em]).
        split; [apply (run_growing sc Hg d); exact Hin|]. split; [|tauto]. eapply linked_le; [apply run_growing; exact Hg | apply Hold; assumption].
      - pose proof (insert_certs_done _ _ _ _ _ _ d Ec) as Hd. pose proof (kept_nth (mask_of d ids) ids k id Em Hk) as Hj.
        destruct (Hd _ _ Hj) as (D1 & D2 & D3). split; [exact D1|]. split.
        + intros ns n Hns. apply D2. apply kept_nth; assumption.
        + intros _ ns n Hns. apply D3. apply kept_nth; assumption.
      - exfalso. apply nth_error_None in Em. rewrite mask_length in Em. assert (k < length ids) by (apply nth_error_Some; congruence). lia.
    Qed.
    Lemma insert_certs_len n i p e y sc : insert_certs H n i p e y = Ok sc -> i = [] /\ sc = [] \/ length sc = 4.
    Proof.
      unfold insert_certs. destruct i; [intros E; injection E as <-; left; auto|]. destruct (cert_rows _ _ _ _); try discriminate.
      destruct (name_pairs _ _); try discriminate. intros E. injection E as <-. right. reflexivity.
    Qed.
    Theorem keep_crash_partial d s s' k : keep d = Ok s -> old_linked d -> k = 0 \/ 4 <= k ->
      keep (run (firstn k s) d) = Ok s' ->
      let d' := run s' (run (firstn k s) d) in
      le_db d d' /\ forall i id, nth_error ids i = Some id -> In id (ids_of (d_certs d')) /\ linked d' names i id /\ (~ In id (ids_of (d_certs d)) -> flagged d' names i).
    Proof.
      intros E Hold Hk E' d'. destruct (keep_split d s E) as (sc & -> & Ec). pose proof (keep_growing d _ E) as Hg. pose proof (keep_growing _ _ E') as Hg'.
      assert (Hle : le_db (run (firstn k (sc ++ insert_policies H (kept (maskp_of d pols) pols))) d) d') by (apply run_growing; exact Hg').
      assert (Hle0 : le_db d (run (firstn k (sc ++ insert_policies H (kept (maskp_of d pols) pols))) d)).
      { apply run_growing. rewrite <- (firstn_skipn k) in Hg. apply Forall_app in Hg. tauto. }
      split; [eapply le_db_trans; eassumption|]. intros i id Hi.
      destruct Hk as [->|Hk].
      - cbn [firstn run fold_left] in *. destruct (keep_split d s' E') as (sc' & -> & Ec'). unfold d'. rewrite run_app.
        destruct (keep_certs_done d sc' Ec' Hold i id Hi) as (K1 & K2 & K3).
        assert (Hg2 : le_db (run sc' d) (run (insert_policies H (kept (maskp_of d pols) pols)) (run sc' d))) by (apply run_growing; apply insert_policies_growing).
        split; [apply Hg2; exact K1|]. split; [eapply linked_le; eassumption|]. intros Hni. eapply flagged_le; [eassumption | apply K3; exact Hni].
      - destruct (keep_certs_done d sc Ec Hold i id Hi) as (K1 & K2 & K3).
        assert (Hsc : exists rest, firstn k (sc ++ insert_policies H (kept (maskp_of d pols) pols)) = sc ++ rest /\ Forall growing rest).
        { destruct (insert_certs_len _ _ _ _ _ _ Ec) as [[_ ->]|Hl].
          - eexists. split; [reflexivity|]. pose proof (insert_policies_growing (kept (maskp_of d pols) pols)) as Hp. cbn [app]. rewrite <- (firstn_skipn k) in Hp. apply Forall_app in Hp. tauto.
          - rewrite firstn_app, Hl, firstn_all2 by lia. eexists. split; [reflexivity|]. pose proof (insert_policies_growing (kept (maskp_of d pols) pols)) as Hp.
            rewrite <- (firstn_skipn (k - 4)) in Hp. apply Forall_app in Hp. tauto. }
        destruct Hsc as (rest & Er & Hrest). rewrite Er, run_app in Hle.
        assert (Hle2 : le_db (run sc d) d') by (eapply le_db_trans; [apply run_growing; exact Hrest | exact Hle]).
        split; [apply Hle2; exact K1|]. split; [eapply linked_le; eassumption|]. intros Hni. eapply flagged_le; [eassumption | apply K3; exact Hni].
    Qed.

    (** ** What is stored *)
    Lemma run_sc_certs d sc n i p e y : insert_certs H n i p e y = Ok sc ->
      exists rows, cert_rows i p e y = Ok rows /\ d_certs (run sc d) = insert_ignore cert_key (d_certs d) rows.
    Proof.
      unfold insert_certs. destruct i as [|i0 i]; [intros E; injection E as <-; exists []; split; reflexivity|].
      destruct (cert_rows (i0 :: i) p e y) as [rows| |] eqn:Er; try discriminate. destruct (name_pairs _ _); try discriminate.
      intros E. injection E as <-. exists rows. split; reflexivity.
    Qed.
    Theorem keep_stored d s : keep d = Ok s -> NoDup ids ->
      let d' := run s d in let mask := mask_of d ids in
      (forall r, In r (d_certs d) -> In r (d_certs d')) /\
      (forall r, In r (d_certs d') -> In r (d_certs d) \/
         exists i, nth_error mask i = Some false /\ nth_error ids i = Some (cr_id r) /\ nth_error parents i = Some (cr_parent r) /\
                   nth_error certs i = Some (cr_payload r) /\ nth_error exps (new_before mask i) = Some (cr_exp r)) /\
      (forall i id p y, nth_error ids i = Some id -> nth_error parents i = Some p -> nth_error certs i = Some y -> ~ In id (map cr_id (d_certs d)) ->
         exists e, nth_error exps (new_before mask i) = Some e /\ In (mk_cr id p e y) (d_certs d') /\
         forall ns n, nth_error names i = Some ns -> In n ns -> In (H n, id) (d_dc d')).
    Proof.
      intros E Hnd d' mask. destruct (keep_split d s E) as (sc & -> & Ec). destruct (run_sc_certs d sc _ _ _ _ _ Ec) as (rows & Er & Erun).
      unfold d'. rewrite run_app. destruct (insert_policies_frame (kept (maskp_of d pols) pols) (run sc d)) as [Ep1 Ep2]. rewrite Ep1, Ep2, Erun. fold mask in Er, Ec |- *.
      split; [|split].
      - intros r Hr. apply ignore_keeps. exact Hr.
      - intros r Hr. apply (ignore_from cr_id beqb beqb_eq cert_key cert_key_ok) in Hr. destruct Hr as [Hr|[Hr _]]; [left; exact Hr | right].
        apply In_nth_error in Hr. destruct Hr as (k & Hk).
        assert (Hkid : nth_error (kept mask ids) k = Some (cr_id r)) by (rewrite <- (cert_rows_ids _ _ _ _ _ Er); unfold ids_of; rewrite nth_error_map, Hk; reflexivity).
        destruct (cert_rows_nth _ _ _ _ _ Er k _ Hkid) as (p & e & y & H1 & H2 & H3 & H4). rewrite Hk in H4. injection H4 as Hr.
        destruct (kept_nth_inv mask (combine ids (combine parents certs)) k (cr_id r, (p, y))) as (i & I1 & I2 & I3).
        { destruct al as (Hn & Hp & Hc & He). pose proof (mask_length d ids) as Hm. fold mask in Hm.
          rewrite !kept_combine by (rewrite ?combine_length; lia).
          apply nth_combine. split; [exact Hkid|]. apply nth_combine. split; [exact H1 | exact H3]. }
        exists i. subst k. assert (Hsplit : nth_error ids i = Some (cr_id r) /\ nth_error parents i = Some p /\ nth_error certs i = Some y).
        { apply nth_combine in I2. destruct I2 as [S1 I2]. apply nth_combine in I2. destruct I2 as [S2 S3]. split; [exact S1|]. split; [exact S2 | exact S3]. }
        destruct Hsplit as (S1 & S2 & S3). rewrite Hr. cbn [cr_id cr_parent cr_exp cr_payload]. rewrite Hr in S1. cbn [cr_id] in S1. auto.
      - intros i id p y Hi Hpi Hci Hnew.
        assert (Hmi : nth_error mask i = Some false).
        { destruct (nth_error mask i) as [[|]|] eqn:Em; [|reflexivity|].
          - exfalso. apply Hnew. eapply check_sound; [apply batch_pos | exact Hi | exact Em].
          - exfalso. apply nth_error_None in Em. unfold mask in Em. rewrite mask_length in Em. assert (i < length ids) by (apply nth_error_Some; congruence). lia. }
        pose proof (kept_nth mask ids i id Hmi Hi) as K1. pose proof (kept_nth mask parents i p Hmi Hpi) as K2. pose proof (kept_nth mask certs i y Hmi Hci) as K3.
        destruct (cert_rows_nth _ _ _ _ _ Er _ _ K1) as (p' & e & y' & H1 & H2 & H3 & H4). rewrite K2 in H1. injection H1 as <-. rewrite K3 in H3. injection H3 as <-.
        exists e. split; [exact H2|]. split.
        + assert (Hndk : NoDup (map cr_id rows)).
          { fold (ids_of rows). rewrite (cert_rows_ids _ _ _ _ _ Er). apply kept_nodup. exact Hnd. }
          assert (El : look cr_id beqb id rows = Some (mk_cr id p e y)) by (apply (in_look cr_id beqb beqb_eq (mk_cr id p e y)); [exact Hndk | eapply nth_error_In; exact H4]).
          pose proof (ignore_look cr_id beqb beqb_eq cert_key cert_key_ok id rows (d_certs d)) as Eg.
          assert (En : look cr_id beqb id (d_certs d) = None) by (apply (look_none cr_id beqb beqb_eq); exact Hnew). rewrite En, El in Eg.
          apply (look_in cr_id beqb beqb_eq) in Eg. tauto.
        + intros ns n Hns Hn. pose proof (insert_certs_done _ _ _ _ _ _ d Ec) as Hd. destruct (Hd _ _ K1) as (_ & D2 & _).
          destruct (D2 ns n (kept_nth mask names i ns Hmi Hns) Hn). assumption.
    Qed.
    (** If everything before it is new, a certificate gets its own expiration. *)
    Theorem keep_own_expiration d s i id p y e : keep d = Ok s -> NoDup ids ->
      (forall j x, j <= i -> nth_error ids j = Some x -> ~ In x (map cr_id (d_certs d))) ->
      nth_error ids i = Some id -> nth_error parents i = Some p -> nth_error certs i = Some y -> nth_error exps i = Some e ->
      In (mk_cr id p e y) (d_certs (run s d)).
    Proof.
      intros E Hnd Hnew Hi Hp Hc He. destruct (keep_stored d s E Hnd) as (_ & _ & K).
      destruct (K i id p y Hi Hp Hc) as (e' & He' & Hin & _); [apply (Hnew i); [lia | exact Hi]|].
      assert (Hb : new_before (mask_of d ids) i = i).
      { unfold new_before. assert (Hf : forall v, In v (firstn i (mask_of d ids)) -> v = false).
        { intros v Hv. apply In_nth_error in Hv. destruct Hv as (j & Hj).
          assert (Hlt : j < i) by (assert (j < length (firstn i (mask_of d ids))) by (apply nth_error_Some; congruence); rewrite firstn_length in *; lia).
          assert (Hj' : nth_error (mask_of d ids) j = Some v).
          { rewrite <- Hj. symmetry. apply nth_firstn_lt. exact Hlt. }
          destruct v; [|reflexivity]. exfalso. destruct (nth_error ids j) as [x|] eqn:Ej.
          - apply (Hnew j x); [lia | exact Ej|]. eapply check_sound; [apply batch_pos | exact Ej | exact Hj'].
          - apply nth_error_None in Ej. assert (i < length ids) by (apply nth_error_Some; congruence). lia. }
        assert (Hl : length (firstn i (mask_of d ids)) = i).
        { rewrite firstn_length, mask_length. assert (i < length ids) by (apply nth_error_Some; congruence). lia. }
        rewrite <- Hl at 2. clear -Hf. induction (firstn i (mask_of d ids)) as [|v m IH]; [reflexivity|]. cbn. rewrite (Hf v) by (left; reflexivity). cbn. f_equal. apply IH. intros; apply Hf; right; assumption. }
      rewrite Hb, He in He'. injection He' as <-. exact Hin.
    Qed.
  End Keep.
End Ingest.
