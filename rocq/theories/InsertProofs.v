(** Proofs about InsertModel.v. *)
From Coq Require Import Sorting.Sorted Sorting.Permutation.
From Verif Require Import Base BaseLemmas UtilModel UtilIds DbModel DbTables DbIngest DbPrune DbCoalesce BundleModel BundleProofs.
From Verif Require Import TrieModel TrieSpec ClientModel SmtModel SmtProofs RoundModel RoundProofs InsertModel.
From Verif Require LoadModel PolicyModel PolicyProofs JsonText JsonModel JsonProofs JsonRead JsonStable JsonUse.

Lemma filter_all {A} (P : A -> bool) l : (forall x, In x l -> P x = true) -> filter P l = l.
Proof. induction l as [|x l IH]; intros F; [reflexivity|]. cbn. rewrite (F x (or_introl eq_refl)), IH; [reflexivity|]. intros y I. apply F. right. exact I. Qed.
Section Proofs.
  Variable zs : JsonModel.zones.
  Variable H : bytes -> bytes.
  Hypothesis Hlen : forall x, length (H x) = HashLength.
  Variables limit max_depth size : nat.
  Hypothesis size_pos : 0 < size.
  Notation ingest := (ingest H). Notation batch_ok := (batch_ok H). Notation server := (server H limit max_depth size).
  Notation insert_policy := (insert_policy zs H limit max_depth size). Notation policy_from_bytes := (policy_from_bytes zs).

  (** ** Reading the certificate *)
  Definition raw_free (c : PolicyModel.cert) : Prop := PolicyModel.f_raw (PolicyModel.c_fields c) = None.
  Lemma cert_free : JsonStable.keeps raw_free (JsonModel.cert_table zs).
  Proof.
    unfold JsonModel.cert_table. apply Forall_app. split.
    - apply (JsonStable.embedded_keeps raw_free (fun f => PolicyModel.f_raw f = None)); [auto|intros x s Q A; exact Q|].
      unfold JsonModel.fields_table, JsonStable.keeps. repeat apply Forall_cons; try apply Forall_nil; apply (JsonStable.entry_keep _ (fun _ => True)); auto.
    - repeat apply Forall_cons; try apply Forall_nil; apply (JsonStable.entry_keep _ (fun _ => True)); auto.
  Qed.
  Lemma structure_free T v c : JsonModel.structure zs T v = Ok (Some (JsonModel.OCert c)) -> raw_free c.
  Proof.
    unfold JsonModel.structure, JsonModel.inflate. destruct (beqb T _).
    { destruct (JsonModel.read_struct _ _ v); discriminate. }
    destruct (beqb T _).
    { destruct (JsonModel.read_struct (JsonModel.cert_table zs) _ v) as [s|] eqn:R; [|discriminate]. intros [= <-]. exact (JsonStable.struct_keep raw_free _ cert_free (JsonModel.zero_cert zs) v s eq_refl R). }
    repeat (destruct (beqb T _); [destruct (JsonModel.read_struct _ _ v); discriminate|]). discriminate.
  Qed.
  Lemma slice_slice f ot o : JsonRead.slice_text zs f true ot = Some (Ok o) -> exists l, o = JsonModel.OSlice l.
  Proof.
    unfold JsonRead.slice_text. destruct (JsonModel.raw_elements ot) as [l|]; [|discriminate]. generalize (@nil JsonModel.object) as acc.
    induction l as [|x l IH]; intros acc E; unfold JsonRead.read_all in *; [injection E as <-; eauto|].
    destruct (JsonModel.from_text_upto zs f true x) as [[o'| |]|]; try discriminate. eapply IH. exact E.
  Qed.
  Lemma read_free text c : policy_from_bytes text = Some (Ok c) -> JsonModel.from_text zs true text = Some (Ok (JsonModel.OPtr (Some (JsonModel.OCert c)))) /\ raw_free c.
  Proof.
    unfold InsertModel.policy_from_bytes. destruct (JsonModel.from_text zs true text) as [[o| |]|] eqn:E; try discriminate.
    intros F. assert (Eo : o = JsonModel.OPtr (Some (JsonModel.OCert c))). { destruct o as [| | | | | | | | |[o|]]; try discriminate. destruct o; try discriminate. injection F as ->. reflexivity. }
    clear F. subst o. split; [reflexivity|]. unfold JsonModel.from_text in E. rewrite JsonRead.from_text_step in E.
    destruct (LoadModel.obind _ _) as [[T [ot|]]|]; try discriminate. destruct (JsonText.parse ot) as [v|]; [|discriminate]. destruct (beqb T _).
    { apply slice_slice in E as [l El]. discriminate. }
    destruct (JsonModel.structure zs T v) as [[o|]| |] eqn:S; try discriminate.
    - injection E as E. cbn [JsonRead.keep_text] in E. subst o. exfalso. revert S. unfold JsonModel.structure, JsonModel.inflate.
      repeat (destruct (beqb T _); [destruct (JsonModel.read_struct _ _ v); discriminate|]). discriminate.
    - destruct T as [|b T]; [discriminate|]. destruct (Byte.eqb b x2a); [|discriminate]. destruct (beqb T _).
      + destruct (JsonRead.slice_text zs (length text) true ot) as [[o'| |]|] eqn:L; try discriminate. apply slice_slice in L as [l ->]. discriminate.
      + destruct (JsonModel.structure zs T v) as [[o|]| |] eqn:S2; try discriminate. injection E as ->. eapply structure_free. exact S2.
  Qed.
  Hypothesis law : JsonStable.zones_law zs.
  (** What is stored is the canonical text; it is read as the same certificate, which has the same text. *)
  Lemma canonical text c : policy_from_bytes text = Some (Ok c) -> exists raw c', JsonModel.raw_of zs (JsonModel.OCert c) = Ok raw /\
    JsonModel.to_text zs (JsonModel.OPtr (Some (JsonModel.OCert c))) = Ok raw /\ policy_from_bytes raw = Some (Ok c') /\ PolicyProofs.same_cert c c' /\
    PolicyModel.f_domain (PolicyModel.c_fields c') = PolicyModel.f_domain (PolicyModel.c_fields c) /\ JsonModel.raw_of zs (JsonModel.OCert c') = Ok raw.
  Proof.
    intros E. apply read_free in E as [E F]. pose proof (JsonStable.upto_good zs law _ true text _ E) as (A & B & raw & X).
    pose proof (JsonRead.round_trip zs true _ raw A X) as R. cbn [JsonRead.normal JsonRead.keep_text JsonRead.n_struct] in R.
    exists raw, (JsonProofs.n_cert zs c). split; [unfold JsonModel.raw_of, JsonModel.json_field; rewrite F; exact X|]. split; [exact X|].
    assert (S : PolicyProofs.same_cert c (JsonProofs.n_cert zs c)) by (apply JsonUse.same_n; exact B).
    split; [unfold InsertModel.policy_from_bytes; rewrite R; reflexivity|]. split; [exact S|]. split; [symmetry; apply S|].
    pose proof (JsonStable.normal_text zs law true _ B) as N. cbn [JsonRead.normal JsonRead.keep_text JsonRead.n_struct] in N.
    unfold JsonModel.raw_of, JsonModel.json_field. cbn [JsonProofs.n_cert JsonProofs.n_fields PolicyModel.c_fields PolicyModel.f_raw]. rewrite N. exact X.
  Qed.

  Lemma ingest_policy d dom raw : ingest true (policy_batch dom raw) d =
    Ok (if in_table (d_pols d) (H raw) then d else run (insert_policies H [(dom, raw)]) d).
  Proof. unfold RoundModel.ingest, keep_existing. cbn. unfold check_pols_exist, put, check_block. cbn. destruct (in_table (d_pols d) (H raw)); reflexivity. Qed.
  Lemma policy_batch_ok d dom raw : batch_ok d (policy_batch dom raw).
  Proof. repeat split; try constructor; intros; contradiction. Qed.

  (** ** All policies of the tables are associated with their domain *)
  Variable subject : bytes -> bytes -> Prop.
  Definition about (keep : bool) (d : db) (b : batch) : Prop := batch_ok d b /\ forall dom raw, In (dom, raw) (b_pols b) -> subject raw dom.
  Definition pols_ok (d : db) : Prop :=
    forall r, In r (d_pols d) -> H (cr_payload r) = cr_id r /\ exists dom, subject (cr_payload r) dom /\ In (H dom, cr_id r) (d_dp d).
  Lemma pols_same d d' : d_pols d' = d_pols d -> d_dp d' = d_dp d -> pols_ok d -> pols_ok d'.
  Proof. unfold pols_ok. intros -> ->. auto. Qed.
  Lemma pols_all rows ps pols d : pols_ok d -> (forall dom raw, In (dom, raw) pols -> subject raw dom) -> pols_ok (all_stmts H rows ps pols d).
  Proof.
    intros P S r. unfold all_stmts. cbn [d_pols d_dp load_dp load_pols load_domains load_dirty load_dc load_certs set_dp set_pols set_domains set_dirty set_dc set_certs].
    intros I. apply (replace_from cr_id beqb beqb_eq cert_key cert_key_ok) in I. destruct I as [[I _]|I].
    - destruct (P r I) as (E & dom & D & A). split; [exact E|]. exists dom. split; [exact D|]. apply pair_ignore_in. now left.
    - apply in_map_iff in I. destruct I as ([dom raw] & <- & I). cbn. split; [reflexivity|]. exists dom. split; [exact (S _ _ I)|].
      apply pair_ignore_in. right. apply in_map_iff. exists (dom, raw). auto.
  Qed.
  Lemma pols_ingest keep b d d' : pols_ok d -> about keep d b -> ingest keep b d = Ok d' -> pols_ok d'.
  Proof.
    intros P [(B1 & B2 & B3 & B4 & _) S] E. unfold RoundModel.ingest in E. destruct keep.
    - assert (Ha : aligned (b_names b) (b_ids b) (b_parents b) (b_certs b) (b_exps b)) by (repeat split; assumption).
      rewrite (keep_existing_eq H d _ _ _ _ _ _ Ha) in E. destruct (insert_certs _ _ _ _ _ _) as [sc| |] eqn:Es; try discriminate. injection E as <-.
      assert (Hk : length (kept (mask_of d (b_ids b)) (b_names b)) = length (kept (mask_of d (b_ids b)) (b_ids b))) by (apply kept_length; rewrite mask_length; [exact B1|reflexivity]).
      destruct (ingest_effect H _ _ _ _ _ (kept (maskp_of H d (b_pols b)) (b_pols b)) _ d Hk Es) as (rows & ps & _ & _ & ->).
      apply pols_all; [exact P|]. intros dom raw I. apply kept_in in I. destruct I as (i & _ & I). apply S. eapply nth_error_In. exact I.
    - unfold overwrite in E. destruct (insert_certs _ _ _ _ _ _) as [sc| |] eqn:Es; try discriminate. injection E as <-.
      destruct (ingest_effect H _ _ _ _ _ (b_pols b) _ d B1 Es) as (rows & ps & _ & _ & ->). apply pols_all; assumption.
  Qed.
  Lemma pols_prune cut d s n : prune_stmts max_depth cut d = Ok s -> d_pols (run (firstn n s) d) = d_pols d /\ d_dp (run (firstn n s) d) = d_dp d.
  Proof.
    unfold prune_stmts. destruct (descendants _ _ _) as [gone|]; [|discriminate]. intros [= <-].
    destruct n as [|[|n]]; [split; reflexivity|split; reflexivity|]. cbn [firstn]. rewrite firstn_nil. split; reflexivity.
  Qed.
  Lemma exec_same d es : keyed d -> let d' := fst (exec H max_depth size (start d) es) in
    d_certs d' = d_certs d /\ d_pols d' = d_pols d /\ d_dc d' = d_dc d /\ d_dp d' = d_dp d.
  Proof. intros K. destruct (exec_inv H max_depth size size_pos d K es (start d) (start_inv H max_depth d K)) as (_ & S & _). exact S. Qed.
  Lemma server_weaken (allowed allowed' : bool -> db -> batch -> Prop) G m d k :
    (forall keep d b, allowed keep d b -> allowed' keep d b) -> server allowed G m d k -> server allowed' G m d k.
  Proof.
    intros W Hs. induction Hs as [|m d k keep b d' _ IH Hb E|m d k cut s n _ IH E|m d k es _ IH|m d k max m' k' _ IH Hl Hm E|m d k es max m' k' _ IH Hr d1 Hl Hm E].
    - apply server_start.
    - eapply server_ingest; eauto.
    - eapply server_prune; eauto.
    - apply server_coalesce; exact IH.
    - eapply server_killed; eauto.
    - eapply server_update; eauto.
  Qed.
  Lemma server_pols G m d k : server about G m d k -> pols_ok d /\ server (fun _ => batch_ok) G m d k.
  Proof.
    intros Hs. split; [|eapply server_weaken; [|exact Hs]; intros keep d0 b [B _]; exact B].
    induction Hs as [|m d k keep b d' Hs IH Hb E|m d k cut s n _ IH E|m d k es Hs IH|m d k max m' k' _ IH Hl Hm E|m d k es max m' k' Hs IH Hr d1 Hl Hm E].
    - intros r [].
    - eapply pols_ingest; eauto.
    - destruct (pols_prune _ _ _ n E) as [A B]. eapply pols_same; eauto.
    - assert (K : keyed d). { eapply ok_keyed, (server_inv H Hlen limit max_depth size size_pos G m d k). eapply server_weaken; [|exact Hs]. intros keep d0 b [B _]; exact B. }
      destruct (exec_same d es K) as (_ & A & _ & B). eapply pols_same; eauto.
    - exact IH.
    - assert (K : keyed d). { eapply ok_keyed, (server_inv H Hlen limit max_depth size size_pos G m d k). eapply server_weaken; [|exact Hs]. intros keep d0 b [B _]; exact B. }
      destruct (exec_same d es K) as (_ & A & _ & B). eapply pols_same; [exact A|exact B|exact IH].
  Qed.
End Proofs.

Section Inserted.
  Variable zs : JsonModel.zones.
  Hypothesis law : JsonStable.zones_law zs.
  Variable H : bytes -> bytes.
  Hypothesis Hlen : forall x, length (H x) = HashLength.
  Variables limit max_depth size : nat.
  Hypothesis size_pos : 0 < size.
  Variable G : bytes -> Prop.
  Hypothesis Hcf : collision_free H G.
  Hypothesis Hnz : forall x, G x -> H x <> zero_hash.
  Notation allowed := (about H (names_domain zs)).
  Notation server := (server H limit max_depth size allowed G).
  Notation insert_policy := (insert_policy zs H limit max_depth size). Notation policy_from_bytes := (policy_from_bytes zs).
  Notation domain c := (PolicyModel.f_domain (PolicyModel.c_fields c)).
  Notation text_of c := (JsonModel.to_text zs (JsonModel.OPtr (Some (JsonModel.OCert c)))).

  Lemma exec_idle d es : d_dirty d = [] -> fst (exec H max_depth size (start d) es) = d.
  Proof.
    intros E. assert (G0 : forall es s, fst s = d -> (forall p, snd s p = Idle \/ exists b, snd s p = Stopped b) -> fst (exec H max_depth size s es) = d).
    { clear es. induction es as [|e es IH]; intros s F W; [exact F|]. cbn [exec fold_left]. apply IH; clear IH.
      - destruct e as [p|]; cbn [exec1]; [|exact F]. destruct (p <? partitions); [|exact F]. unfold work. destruct (W p) as [->|[b ->]]; [|exact F].
        destruct (calc_dirty _ _ _ _ _) as [[st n]| |]; exact F.
      - intros q. destruct e as [p|]; cbn [exec1]; [|left; reflexivity]. destruct (p <? partitions); [|apply W]. unfold work. destruct (W p) as [->|[b ->]].
        + assert (C : calc_dirty H max_depth p size (fst s) = Ok ([], 0)). { unfold calc_dirty, pending. rewrite F, E. cbn. rewrite firstn_nil. reflexivity. }
          rewrite C. cbn. destruct (q =? p); [right; eauto|apply W].
        + cbn. destruct (q =? p); [right; eauto|apply W]. }
    apply G0; [reflexivity|]. intros p. left. reflexivity.
  Qed.
  Lemma root_kept max d k k' r : update_smt H limit max d k = (Ok tt, k') -> k_root k = Some r -> exists r', k_root k' = Some r'.
  Proof.
    unfold update_smt. intros E R. destruct (d_dirty d); [injection E as <-; eauto|]. destruct (smt_bundles _ _) as [[bs| |]|]; try discriminate.
    destruct (update_bundles _ _ _ _ _) as [[[|b x]| |] s]; try discriminate. injection E as <-. cbn. eauto.
  Qed.
  Lemma in_table_iff t id : in_table t id = true <-> exists r, In r t /\ cr_id r = id.
  Proof. unfold in_table. rewrite existsb_exists. split; intros (r & I & E); exists r; (split; [exact I|]); apply beqb_eq; assumption. Qed.

  (** The tables after UpdateWithKeepExisting *)
  Lemma ingested d dom raw : pols_ok H (names_domain zs) d -> names_domain zs raw dom -> (forall r, In r (d_pols d) -> H (cr_payload r) = H raw -> cr_payload r = raw) ->
    exists d1, ingest H true (policy_batch dom raw) d = Ok d1 /\ allowed true d (policy_batch dom raw) /\
      d_certs d1 = d_certs d /\ d_dc d1 = d_dc d /\ (exists r, In r (d_pols d1) /\ cr_id r = H raw /\ cr_payload r = raw) /\ In (H dom, H raw) (d_dp d1) /\
      (forall x i, x <> H dom -> In (x, i) (d_dp d1) <-> In (x, i) (d_dp d)) /\ (forall i, In i (ids_of (d_pols d1)) <-> In i (ids_of (d_pols d)) \/ i = H raw) /\
      (forall r, In r (d_pols d) -> In r (d_pols d1)).
  Proof.
    intros P S C. eexists. split; [apply ingest_policy|]. split; [split; [apply policy_batch_ok|intros dom' raw' [[= <- <-]|[]]; exact S]|].
    destruct (in_table (d_pols d) (H raw)) eqn:T.
    - apply in_table_iff in T as (r & I & E). destruct (P r I) as (E2 & dom' & S' & A). pose proof (C r I ltac:(congruence)) as Ep.
      assert (Ed : dom' = dom). { destruct S as (c & F & <-). destruct S' as (c' & F' & <-). rewrite Ep in F'. rewrite F in F'. injection F' as ->. reflexivity. }
      subst dom'. split; [reflexivity|]. split; [reflexivity|]. split; [eauto|]. split; [rewrite <- E; exact A|]. split; [tauto|]. split; [|auto].
      intros i. split; [auto|]. intros [J| ->]; [exact J|]. rewrite <- E. apply in_map. exact I.
    - assert (N : forall r, In r (d_pols d) -> cr_id r <> H raw). { intros r I E. enough (in_table (d_pols d) (H raw) = true) by congruence. apply in_table_iff. eauto. }
      assert (Q : d_pols (run (insert_policies H [(dom, raw)]) d) = d_pols d ++ [mk_cr (H raw) [] far_future raw]).
      { cbn. f_equal. apply filter_all. intros r I. unfold cert_key. cbn. apply Bool.negb_true_iff, beqb_neq. intros E. exact (N r I (eq_sym E)). }
      assert (R : forall p, In p (d_dp (run (insert_policies H [(dom, raw)]) d)) <-> In p (d_dp d) \/ p = (H dom, H raw)).
      { intros p. cbn. unfold pair_key at 1. cbn [fst snd]. destruct (existsb _ (d_dp d)) eqn:X.
        - apply existsb_exists in X as ([a b] & I & E). apply andb_true_iff in E as [E1 E2]. apply beqb_eq in E1, E2. cbn in E1, E2. subst. split; [auto|]. intros [J| ->]; assumption.
        - rewrite in_app_iff. cbn. split; (intros [J|J]; [auto|right]); [destruct J as [J|[]]; auto|left; auto]. }
      split; [reflexivity|]. split; [reflexivity|]. rewrite Q. split; [exists (mk_cr (H raw) [] far_future raw); split; [apply in_app_iff; right; left; reflexivity|auto]|].
      split; [apply R; auto|]. split. { intros x i Nx. rewrite R. split; [intros [J|J]; [exact J|congruence]|auto]. }
      split; [|intros r I; apply in_app_iff; auto]. intros i. unfold ids_of. rewrite map_app, in_app_iff. cbn. split; intros [J|J]; auto. destruct J as [J|[]]; auto.
  Qed.
  Definition says (before after : option bytes) (m : message) : Prop :=
    match m with
    | First a => before = None /\ after = a
    | Same r => before = Some r /\ after = Some r
    | Changed a b => a <> b /\ before = Some a /\ after = Some b
    end.
  Lemma report_says a b : (a <> None -> b <> None) -> exists m, report a b = Ok m /\ says a b m.
  Proof.
    intros N. destruct a as [a|]; [|exists (First b); split; [reflexivity|split; reflexivity]]. destruct b as [b|]; [|exfalso; apply N; congruence]. cbn. destruct (beqb_spec a b) as [->|D].
    - exists (Same b). split; [reflexivity|split; reflexivity].
    - exists (Changed a b). split; [reflexivity|]. repeat split. exact D.
  Qed.
  Lemma listing_ext d d' x : (forall i, lists (d_certs d') (d_dc d') x i <-> lists (d_certs d) (d_dc d) x i) ->
    (forall i, lists (d_pols d') (d_dp d') x i <-> lists (d_pols d) (d_dp d) x i) -> forall ids, listing d' x ids <-> listing d x ids.
  Proof.
    intros A B ids. split; intros (cs & ps & C1 & C2 & P1 & P2 & Q); exists cs, ps; (split; [exact C1|]); (split; [intros i; rewrite C2; first [apply A|symmetry; apply A]|]);
      (split; [exact P1|]); (split; [intros i; rewrite P2; first [apply B|symmetry; apply B]|exact Q]).
  Qed.

  Lemma inserted m m' d k text c es max : server m d k -> policy_from_bytes text = Some (Ok c) ->
    (forall r raw, In r (d_pols d) -> text_of c = Ok raw -> H (cr_payload r) = H raw -> cr_payload r = raw) ->
    returned (workers zs H max_depth size c es d) = true -> 0 < max -> legal_update H G m (fst (workers zs H max_depth size c es d)) m' ->
    exists msg d' k' raw c', insert_policy text es max d k = Some (Ok msg, d', k') /\ server m' d' k' /\ d_dirty d' = [] /\ says (k_root k) (k_root k') msg /\
      text_of c = Ok raw /\ policy_from_bytes raw = Some (Ok c') /\ PolicyProofs.same_cert c c' /\
      (exists r, In r (d_pols d') /\ cr_id r = H raw /\ cr_payload r = raw) /\ In (H (domain c), H raw) (d_dp d') /\
      (forall rlimit, exists ids r, listing d' (H (domain c)) ids /\ In (H raw) ids /\ respond H d' k' rlimit (domain c) = Ok r /\
        entry r = Some (mk_entry (domain c) (H (domain c)) (H (concat ids))) /\ verify_proof_by_domain H r = Ok (PoP, true)) /\
      d_certs d' = d_certs d /\ (forall r, In r (d_pols d) -> In r (d_pols d')) /\ (forall x, x <> H (domain c) -> forall ids, listing d' x ids <-> listing d x ids).
  Proof.
    intros Hs Ht Hc Hr Hm Hl. destruct (canonical zs law text c Ht) as (raw & c' & R1 & R2 & R3 & R4 & R5 & R6).
    destruct (server_pols H Hlen limit max_depth size size_pos (names_domain zs) G m d k Hs) as [P Hs0].
    assert (S : names_domain zs raw (domain c)) by (exists c'; auto).
    destruct (ingested d (domain c) raw P S (fun r I => Hc r raw I R2)) as (d1 & E1 & A1 & I1 & I2 & I3 & I4 & I5 & I6 & I7).
    unfold workers in Hr, Hl. rewrite R1, E1 in Hr, Hl. set (s := exec H max_depth size (start d1) es) in *.
    assert (Hs1 : server m d1 k) by (eapply server_ingest; [exact Hs|exact A1|exact E1]).
    destruct (server_pols H Hlen limit max_depth size size_pos (names_domain zs) G m d1 k Hs1) as [_ Hs1'].
    destruct (server_inv H Hlen limit max_depth size size_pos G m d1 k Hs1') as (O1 & Hreach & _).
    destruct (exec_same H max_depth size size_pos d1 es (ok_keyed _ _ O1)) as (X1 & X2 & X3 & X4). fold s in X1, X2, X3, X4.
    destruct (reach_update_smt H Hlen limit G Hcf Hnz max (fst s) k m m' Hm Hreach Hl) as (k' & U & _).
    assert (Hs2 : server m' (cleanup (fst s)) k') by (exact (server_update H limit max_depth size _ G m d1 k es max m' k' Hs1 Hr Hl Hm U)).
    destruct (server_pols H Hlen limit max_depth size size_pos (names_domain zs) G m' _ k' Hs2) as [_ Hs2'].
    destruct (server_inv H Hlen limit max_depth size size_pos G m' _ k' Hs2') as (O2 & _ & _).
    destruct (report_says (k_root k) (k_root k')) as (msg & M1 & M2).
    { intros N. destruct (k_root k) as [r|] eqn:Er; [|congruence]. destruct (root_kept max (fst s) k k' r U Er) as [r' ->]. discriminate. }
    exists msg, (cleanup (fst s)), k', raw, c'. split. { unfold InsertModel.insert_policy. rewrite Ht, R1, E1. fold s. cbv zeta. rewrite Hr, U, M1. reflexivity. }
    split; [exact Hs2|]. split; [reflexivity|]. split; [exact M2|]. split; [exact R2|]. split; [exact R3|]. split; [exact R4|].
    assert (Fl : forall d0, tables_ok H d0 -> forall x i, lists (d_pols d0) (d_dp d0) x i <-> In i (ids_of (d_pols d0)) /\ In (x, i) (d_dp d0)).
    { intros d0 O x. apply lists_flat. intros r I. destruct (ok_pols _ _ O r I) as [E L]. split; [exact E|]. intros N. rewrite N in L. discriminate. }
    assert (I3' : exists r, In r (d_pols (cleanup (fst s))) /\ cr_id r = H raw /\ cr_payload r = raw) by (cbn; rewrite X2; exact I3).
    assert (I4' : In (H (domain c), H raw) (d_dp (cleanup (fst s)))) by (cbn; rewrite X4; exact I4).
    split; [exact I3'|]. split; [exact I4'|]. split; [|split; [|split]].
    - intros rlimit. destruct (server_answers H Hlen limit max_depth size size_pos G Hcf Hnz m' _ k' rlimit (domain c) Hs2' (fun F => F)) as (ids & r & L & Q & V).
      assert (J : In (H raw) ids).
      { destruct L as (cs & ps & _ & _ & _ & L & Pm & _). eapply Permutation_in; [symmetry; exact Pm|]. apply in_app_iff. right. apply L. apply (Fl _ O2).
        split; [destruct I3' as (x & J & <- & _); apply in_map; exact J|exact I4']. }
      exists ids, r. split; [exact L|]. split; [exact J|]. split; [exact Q|]. destruct ids; [destruct J|exact V].
    - cbn. rewrite X1. exact I1.
    - intros r I. cbn. rewrite X2. apply I7, I.
    - destruct (server_inv H Hlen limit max_depth size size_pos G m d k Hs0) as (O0 & _ & _).
      intros x Nx. apply listing_ext; [cbn; rewrite X1, X3, I1, I2; tauto|]. intros i. rewrite (Fl _ O2), (Fl _ O0). cbn. rewrite X2, X4, I5 by exact Nx. rewrite I6.
      split; intros [A B]; (split; [|exact B]).
      + exact (ok_dp _ _ O0 x i B).
      + auto.
  Qed.

  (** ** Again *)
  Lemma again text c raw es max d k : policy_from_bytes text = Some (Ok c) -> text_of c = Ok raw -> d_dirty d = [] -> (exists r, In r (d_pols d) /\ cr_id r = H raw) ->
    returned (exec H max_depth size (start d) es) = true ->
    insert_policy text es max d k = Some (Ok (match k_root k with None => First None | Some r => Same r end), d, k).
  Proof.
    intros Ht R D I Hr. destruct (canonical zs law text c Ht) as (raw' & c' & R1 & R2 & _). assert (raw' = raw) by congruence. subst raw'.
    unfold InsertModel.insert_policy. rewrite Ht, R1, ingest_policy. apply in_table_iff in I. rewrite I. cbv zeta. rewrite Hr. rewrite exec_idle by exact D.
    unfold update_smt. rewrite D. unfold report. destruct (k_root k) as [r|]; [rewrite beqb_refl|]; (f_equal; f_equal; f_equal; unfold cleanup; destruct d; cbn in *; rewrite D; reflexivity).
  Qed.
  (** ** A process that dies *)
  Lemma replace_twice (t : list (bytes * bool)) r : insert_replace fst_key (insert_replace fst_key t [r]) [r] = insert_replace fst_key t [r].
  Proof.
    cbn. rewrite filter_app. cbn [filter]. assert (X : fst_key r r = true) by (unfold fst_key; apply beqb_refl). rewrite X. cbn [negb]. rewrite app_nil_r. f_equal.
    apply filter_all. intros x I. apply filter_In in I. apply I.
  Qed.
  Lemma ignore_twice (t : list (bytes * bytes)) r : insert_ignore fst_key (insert_ignore fst_key t [r]) [r] = insert_ignore fst_key t [r].
  Proof.
    cbn. destruct (existsb (fst_key r) t) eqn:X; [rewrite X; reflexivity|]. rewrite existsb_app. cbn [existsb]. assert (Y : fst_key r r = true) by (unfold fst_key; apply beqb_refl).
    rewrite Y, orb_true_r. reflexivity.
  Qed.
  Lemma killed_early n dom raw d : n <= 2 -> ingest H true (policy_batch dom raw) (killed_after H n dom raw d) = ingest H true (policy_batch dom raw) d.
  Proof.
    clear. intros L. rewrite !ingest_policy. unfold killed_after. destruct (in_table (d_pols d) (H raw)) eqn:T; [rewrite T; reflexivity|]. f_equal.
    unfold insert_policies. cbn [map fst snd]. pose proof (replace_twice (d_dirty d) (H dom, false)) as A. pose proof (ignore_twice (d_domains d) (H dom, dom)) as B.
    destruct n as [|[|[|n]]]; [| | |lia]; cbn [firstn run fold_left];
      unfold load_dirty, load_domains, load_pols, load_dp, set_dirty, set_domains, set_pols, set_dp; destruct d as [v1 v2 v3 v4 v5 v6 v7]; cbn [d_certs d_pols d_domains d_dc d_dp d_dirty d_pay map] in *; rewrite T; rewrite ?A, ?B; reflexivity.
  Qed.
  Lemma killed_late n dom raw d : 4 <= n -> Ok (killed_after H n dom raw d) = ingest H true (policy_batch dom raw) d.
  Proof.
    clear. intros L. rewrite ingest_policy. unfold killed_after. destruct (in_table (d_pols d) (H raw)); [reflexivity|]. rewrite firstn_all2 by exact L. reflexivity.
  Qed.
  (** The row of the policy is there, the association is not: no later run of the command adds it. *)
  Lemma killed_between text c raw d k es max r d' k' : policy_from_bytes text = Some (Ok c) -> text_of c = Ok raw -> keyed (killed_after H 3 (domain c) raw d) ->
    in_table (d_pols d) (H raw) = false -> insert_policy text es max (killed_after H 3 (domain c) raw d) k = Some (r, d', k') ->
    d_certs d' = d_certs d /\ d_dc d' = d_dc d /\ d_dp d' = d_dp d /\ in_table (d_pols d') (H raw) = true.
  Proof.
    intros Ht R K T E. destruct (canonical zs law text c Ht) as (raw' & c' & R1 & R2 & _). assert (raw' = raw) by congruence. subst raw'.
    assert (Q : d_certs (killed_after H 3 (domain c) raw d) = d_certs d /\ d_dc (killed_after H 3 (domain c) raw d) = d_dc d /\
      d_dp (killed_after H 3 (domain c) raw d) = d_dp d /\ in_table (d_pols (killed_after H 3 (domain c) raw d)) (H raw) = true).
    { unfold killed_after. rewrite T. cbn. repeat split. unfold in_table. rewrite existsb_app. cbn [existsb cr_id]. rewrite beqb_refl. apply orb_true_r. }
    destruct Q as (Q1 & Q3 & Q4 & Q2). rewrite <- Q1, <- Q3, <- Q4. clear Q1 Q3 Q4. set (d0 := killed_after H 3 (domain c) raw d) in *. clearbody d0.
    unfold InsertModel.insert_policy in E. rewrite Ht, R1, ingest_policy, Q2 in E. cbv zeta in E. injection E as E.
    destruct (exec_same H max_depth size size_pos d0 es K) as (X1 & X2 & X3 & X4).
    destruct (returned _); [|injection E as _ <- _; rewrite X4, X3, X2, X1; repeat split; exact Q2].
    destruct (update_smt H limit max _ k) as [[u| |] k2]; injection E as _ <- _; cbn; rewrite X4, X3, X2, X1; repeat split; exact Q2.
  Qed.
  Lemma insert_step text c raw d d1 es max d2 k k' : policy_from_bytes text = Some (Ok c) -> JsonModel.raw_of zs (JsonModel.OCert c) = Ok raw ->
    ingest H true (policy_batch (domain c) raw) d = Ok d1 -> returned (exec H max_depth size (start d1) es) = true -> d2 = fst (exec H max_depth size (start d1) es) ->
    fst (update_smt H limit max d2 k) = Ok tt -> snd (update_smt H limit max d2 k) = k' ->
    insert_policy text es max d k = Some (report (k_root k) (k_root k'), cleanup d2, k').
  Proof.
    clear. intros E1 E2 E3 E4 E5 E6 E7. unfold InsertModel.insert_policy. rewrite E1, E2, E3. cbv zeta. rewrite E4, <- E5. destruct (update_smt H limit max d2 k) as [r k2].
    cbn in E6, E7. subst. reflexivity.
  Qed.
End Inserted.
