(** Property theorems C90: the command of the map server that inserts a policy certificate, for the model in InsertModel.v. *)
From Coq Require Import Permutation Sorted.
From Coq Require Import Strings.String.
From Verif Require LoadModel PolicyModel PolicyProofs JsonText JsonModel JsonProofs JsonRead JsonStable JsonUse PropertiesJson.
From Verif Require Import Base BaseLemmas UtilModel UtilIds DbModel DbTables DbIngest DbPrune DbCoalesce BundleModel BundleProofs.
From Verif Require Import TrieModel TrieSpec TrieMaps TrieExample TrieRefute TrieTop ClientModel DomainModel DomainSpec DomainTop SmtModel SmtProofs PropertiesSmt RoundModel RoundProofs PropertiesRound InsertModel InsertProofs.
Local Open Scope list_scope.
Local Notation b_ s := (list_byte_of_string s%string).
Local Notation domain c := (PolicyModel.f_domain (PolicyModel.c_fields c)).
Local Notation text_of zs c := (JsonModel.to_text zs (JsonModel.OPtr (Some (JsonModel.OCert c)))).

Section C90.
  Variable zs : JsonModel.zones.
  Variable H : bytes -> bytes.
  Variables limit max_depth size : nat.
  Variable G : bytes -> Prop.
  (** States of the server in which each policy was inserted under its domain *)
  Definition policy_server : kvmap -> db -> disk -> Prop := server H limit max_depth size (about H (names_domain zs)) G.

  (** * C90. The command succeeds on each file with a policy certificate; afterwards the policy is stored under the hash of its text, the text is
      read as the certificate of the file, and the answer for its domain is accepted and lists it. Nothing else changes: the certificates, the other
      policies, and what is listed for the other domains. The message tells the roots before and after. Partial like C69 ([legal_update], no collisions
      of policies, no crash in between); [workers]: the workers of the coalescing, with the events [es]. *)
  Theorem C90_inserted_partial m m' d k text c es max :
    JsonStable.zones_law zs -> (forall x, length (H x) = HashLength) -> 0 < size -> collision_free H G -> (forall x, G x -> H x <> zero_hash) ->
    policy_server m d k -> policy_from_bytes zs text = Some (Ok c) ->
    (forall r raw, In r (d_pols d) -> text_of zs c = Ok raw -> H (cr_payload r) = H raw -> cr_payload r = raw) ->
    returned (workers zs H max_depth size c es d) = true -> 0 < max -> legal_update H G m (fst (workers zs H max_depth size c es d)) m' ->
    exists msg d' k' raw c', insert_policy zs H limit max_depth size text es max d k = Some (Ok msg, d', k') /\ policy_server m' d' k' /\ d_dirty d' = [] /\
      match msg with
      | First a => k_root k = None /\ k_root k' = a
      | Same r => k_root k = Some r /\ k_root k' = Some r
      | Changed a b => a <> b /\ k_root k = Some a /\ k_root k' = Some b
      end /\
      text_of zs c = Ok raw /\ policy_from_bytes zs raw = Some (Ok c') /\ PolicyProofs.same_cert c c' /\
      (exists r, In r (d_pols d') /\ cr_id r = H raw /\ cr_payload r = raw) /\ In (H (domain c), H raw) (d_dp d') /\
      (forall rlimit, exists ids r, listing d' (H (domain c)) ids /\ In (H raw) ids /\ respond H d' k' rlimit (domain c) = Ok r /\
        entry r = Some (mk_entry (domain c) (H (domain c)) (H (concat ids))) /\ verify_proof_by_domain H r = Ok (PoP, true)) /\
      d_certs d' = d_certs d /\ (forall r, In r (d_pols d) -> In r (d_pols d')) /\ (forall x, x <> H (domain c) -> forall ids, listing d' x ids <-> listing d x ids).
  Proof. intros L A B C D. exact (inserted zs L H A limit max_depth size B G C D m m' d k text c es max). Qed.
  (** A second time nothing changes. *)
  Theorem C90_again text c raw es max d k : JsonStable.zones_law zs -> policy_from_bytes zs text = Some (Ok c) -> text_of zs c = Ok raw ->
    d_dirty d = [] -> (exists r, In r (d_pols d) /\ cr_id r = H raw) -> returned (exec H max_depth size (start d) es) = true ->
    insert_policy zs H limit max_depth size text es max d k = Some (Ok (match k_root k with None => First None | Some r => Same r end), d, k).
  Proof. intros L. exact (again zs L H limit max_depth size text c raw es max d k). Qed.
  (** A file that is no policy certificate changes nothing. The reading always ends. *)
  Theorem C90_refused text es max d k : (forall c, JsonModel.from_text zs true text <> Some (Ok (JsonModel.OPtr (Some (JsonModel.OCert c))))) ->
    insert_policy zs H limit max_depth size text es max d k = Some (Err, d, k).
  Proof.
    intros N. unfold insert_policy, policy_from_bytes. destruct (PropertiesJson.C72_every_text zs true text) as (r & E & P). rewrite E in *.
    destruct r as [o| |]; [|reflexivity|congruence]. destruct o as [| | | | | | | | |[o|]]; try reflexivity. destruct o; try reflexivity. exfalso. eapply N. reflexivity.
  Qed.
  (** What is stored depends on the certificate only: a text of it, and one text says one certificate. *)
  Theorem C90_one_text text text' c c' raw : JsonStable.zones_law zs -> policy_from_bytes zs text = Some (Ok c) -> policy_from_bytes zs text' = Some (Ok c') ->
    text_of zs c = Ok raw -> text_of zs c' = Ok raw -> PolicyProofs.same_cert c c'.
  Proof.
    intros L E E' T T'. destruct (canonical zs L text c E) as (r & d & _ & R & D & S & _). destruct (canonical zs L text' c' E') as (r' & d' & _ & R' & D' & S' & _).
    assert (r = raw) by congruence. assert (r' = raw) by congruence. subst r r'. assert (d' = d) by congruence. subst d'.
    eapply PolicyProofs.same_cert_trans; [exact S|]. apply JsonUse.same_sym. exact S'.
  Qed.
  Theorem C90_settled text c raw : JsonStable.zones_law zs -> policy_from_bytes zs text = Some (Ok c) -> text_of zs c = Ok raw ->
    exists c', policy_from_bytes zs raw = Some (Ok c') /\ text_of zs c' = Ok raw.
  Proof.
    intros L E T. destruct (canonical zs L text c E) as (r & c' & _ & R & D & S & _). assert (r = raw) by congruence. subst r. exists c'. split; [exact D|].
    destruct (canonical zs L raw c' D) as (r & c2 & Q & R2 & _). destruct (canonical zs L text c E) as (r3 & c3 & _ & R3 & D3 & _ & _ & Q3). congruence.
  Qed.
  (** ** A process that dies in UpdateWithKeepExisting: after at most two statements or after all four, running it again completes it. *)
  Theorem C90_killed n dom raw d : n <> 3 ->
    ingest H true (policy_batch dom raw) (killed_after H n dom raw d) = ingest H true (policy_batch dom raw) d.
  Proof.
    intros N. destruct (Nat.le_gt_cases n 2) as [L|L]; [apply killed_early; exact L|]. assert (L4 : 4 <= n) by lia.
    pose proof (killed_late H n dom raw d L4) as E. rewrite <- E. pose proof (ingest_policy H (killed_after H n dom raw d) dom raw) as I. rewrite I. f_equal.
    destruct (in_table (d_pols (killed_after H n dom raw d)) (H raw)) eqn:T; [reflexivity|]. exfalso. rewrite ingest_policy in E. injection E as E. rewrite E in T.
    destruct (in_table (d_pols d) (H raw)) eqn:T0; [congruence|]. cbn in T. unfold in_table in T. rewrite existsb_app in T. cbn [existsb cr_id] in T. rewrite beqb_refl in T.
    rewrite orb_true_r in T. discriminate.
  Qed.
End C90.
(** ** A policy certificate for the domain "a" on an empty data base; it has no signature at all. *)
Definition ins_text : bytes := b_ " {""o"":{""Domain"":""a"", ""serialNumber"":7}, ""T"":""*pc""}".
Definition ins_raw : bytes := match policy_from_bytes PropertiesJson.ex_zones ins_text with Some (Ok c) => match text_of PropertiesJson.ex_zones c with Ok r => r | _ => [] end | _ => [] end.
Definition ins_cert : PolicyModel.cert := match policy_from_bytes PropertiesJson.ex_zones ins_text with Some (Ok c) => c | _ => JsonModel.zero_cert PropertiesJson.ex_zones end.
Example C90_raw : ins_raw = b_ "{""T"":""*pc"",""O"":{""SerialNumber"":7,""Domain"":""a"",""NotBefore"":""0001-01-01T00:00:00Z"",""NotAfter"":""0001-01-01T00:00:00Z"",""TimeStamp"":""0001-01-01T00:00:00Z"",""PolicyAttributes"":{}}}".
Proof. vm_compute. reflexivity. Qed.
Definition insH (x : bytes) : bytes := if beqb x ins_raw then certA else smtH x.
Lemma insH_table x : exG x -> insH x = smtH x.
Proof.
  intros Hx. assert (N : existsb (beqb ins_raw) ex_table = false) by (vm_compute; reflexivity). unfold insH. destruct (beqb_spec x ins_raw) as [->|]; [|reflexivity].
  exfalso. enough (existsb (beqb ins_raw) ex_table = true) by congruence. apply existsb_exists. exists ins_raw. split; [exact Hx|apply beqb_refl].
Qed.
Lemma insH_length x : length (insH x) = HashLength.
Proof. unfold insH. destruct (beqb x _); [reflexivity|]. apply smtH_length. Qed.
Lemma insH_cf : collision_free insH exG.
Proof. destruct smtH_cf as [Ha Hb]. split; intros x y Hx Hy; rewrite (insH_table x Hx), (insH_table y Hy); auto. Qed.
Lemma insH_nz x : exG x -> insH x <> zero_hash.
Proof. intros Hx. rewrite insH_table by exact Hx. apply smtH_nz. exact Hx. Qed.
Definition ins_m : kvmap := [(kA, v1)].
Lemma ins_covers_sub m : is_map m -> incl m ins_m -> TrieSpec.covers insH exG m.
Proof.
  intros [Hn _] Hi. apply NoDup_keys_NoDup in Hn.
  assert (Hc : forall l, incl l ins_m -> forallb (fun s => existsb (beqb s) ex_table) (strings_of insH TrieHeight (build TrieHeight l)) = true ->
                         TrieSpec.covers insH exG l).
  { intros l Hl Hb. split; [apply ex_in_b; exact Hb|]. intros k v h Hk. apply ex_leaf_in.
    apply Hl in Hk. destruct Hk as [<-|[]]; cbn; auto. }
  destruct m as [|p [|q m]].
  - apply Hc; [intros x []|reflexivity].
  - destruct (Hi p (or_introl eq_refl)) as [<-|[]]. apply Hc; [intros x Hx; exact Hx|vm_compute; reflexivity].
  - exfalso. destruct (Hi p (or_introl eq_refl)) as [E1|[]]. destruct (Hi q (or_intror (or_introl eq_refl))) as [E2|[]]. inversion Hn as [|? ? X _]; subst. apply X. left. reflexivity.
Qed.
Definition ins_db : db := match ingest insH true (policy_batch nameA ins_raw) empty_db with Ok d => d | _ => empty_db end.
Definition ins_coalesced : db := fst (exec insH 10 3 (start ins_db) all_work).
Lemma ins_workers : workers PropertiesJson.ex_zones insH 10 3 ins_cert all_work empty_db = exec insH 10 3 (start ins_db) all_work.
Proof.
  assert (A : JsonModel.raw_of PropertiesJson.ex_zones (JsonModel.OCert ins_cert) = Ok ins_raw) by (vm_compute; reflexivity).
  assert (B : domain ins_cert = nameA) by (vm_compute; reflexivity). assert (C : ingest insH true (policy_batch nameA ins_raw) empty_db = Ok ins_db) by (unfold ins_db; rewrite ingest_policy; reflexivity).
  unfold workers. rewrite A, B, C. reflexivity.
Qed.
Lemma ins_legal : legal_update insH exG [] ins_coalesced ins_m.
Proof.
  assert (Hb : dirty_batch insH ins_coalesced = [(kA, v1)]) by (vm_compute; reflexivity).
  unfold legal_update. rewrite Hb. cbv zeta. split.
  { cbn. constructor; [intros []|constructor]. }
  split; [repeat constructor|].
  split. { intros k v [Hq|[]]; injection Hq as <- <-; split; discriminate. }
  split. { intros (n & x & k1 & k2 & _ & [] & _). }
  split. { intros x y Hx Hy. apply (sep_bit kB kA ltac:(discriminate)); cbn in *; tauto. }
  split.
  { intros c Hc Hnc mc Hmc Ho. apply ins_covers_sub; [exact Hmc|]. intros [k v] Hi.
    apply (In_lookup mc k v (proj1 Hmc)) in Hi. rewrite (Ho k) in Hi. unfold batch_effect in Hi. cbn [TrieSpec.lookup] in Hi.
    destruct (TrieSpec.lookup c k) as [w|] eqn:Hw; [|discriminate]. apply lookup_In in Hw. apply Hc in Hw.
    destruct (beqb w DefaultLeaf); [discriminate|]. injection Hi as <-. destruct Hw as [Hw|[]]; rewrite <- Hw; cbn; auto. }
  split. { split; [repeat constructor; intros []|]. repeat constructor; discriminate. } split; [|discriminate].
  intros k. unfold batch_effect. cbn [TrieSpec.lookup ins_m].
  destruct (beqb_spec kA k) as [Ha|Ha]; reflexivity.
Qed.
Local Notation zs0 := PropertiesJson.ex_zones.
Lemma ins_read : policy_from_bytes zs0 ins_text = Some (Ok ins_cert).
Proof. vm_compute. reflexivity. Qed.
Lemma ins_returned : returned (exec insH 10 3 (start ins_db) all_work) = true.
Proof. vm_compute. reflexivity. Qed.
Example C90_example :
  policy_server zs0 insH 32 10 3 exG [] empty_db no_tree /\ policy_from_bytes zs0 ins_text = Some (Ok ins_cert) /\
  returned (workers zs0 insH 10 3 ins_cert all_work empty_db) = true /\ legal_update insH exG [] (fst (workers zs0 insH 10 3 ins_cert all_work empty_db)) ins_m /\
  (exists k', insert_policy zs0 insH 32 10 3 ins_text all_work 5 empty_db no_tree = Some (Ok (First (Some (root_of insH ins_m))), cleanup ins_coalesced, k')) /\
  BundleModel.entry_of (cleanup ins_coalesced) kA = (kA, certA) /\ domain ins_cert = nameA /\
  PolicyModel.f_owner_sig (PolicyModel.c_fields ins_cert) = None /\ PolicyModel.c_issuer_sig ins_cert = None /\ PolicyModel.c_spcts ins_cert = [].
Proof.
  split; [apply server_start|]. split; [exact ins_read|]. rewrite ins_workers. split; [exact ins_returned|].
  split. { assert (He : ins_coalesced = fst (exec insH 10 3 (start ins_db) all_work)) by (unfold ins_coalesced; reflexivity). rewrite <- He. exact ins_legal. }
  split.
  - assert (A : JsonModel.raw_of zs0 (JsonModel.OCert ins_cert) = Ok ins_raw) by (vm_compute; reflexivity). assert (B : domain ins_cert = nameA) by (vm_compute; reflexivity).
    assert (C : ingest insH true (policy_batch nameA ins_raw) empty_db = Ok ins_db) by (unfold ins_db; rewrite ingest_policy; reflexivity).
    assert (D : fst (update_smt insH 32 5 ins_coalesced no_tree) = Ok tt /\ k_root (snd (update_smt insH 32 5 ins_coalesced no_tree)) = Some (root_of insH ins_m)) by (split; vm_compute; reflexivity).
    rewrite <- B in C. destruct D as [D1 D2]. exists (snd (update_smt insH 32 5 ins_coalesced no_tree)).
    assert (He : ins_coalesced = fst (exec insH 10 3 (start ins_db) all_work)) by (unfold ins_coalesced; reflexivity).
    rewrite (insert_step zs0 insH 32 10 3 ins_text ins_cert ins_raw empty_db ins_db all_work 5 ins_coalesced no_tree _ ins_read A C ins_returned He D1 eq_refl).
    rewrite D2. reflexivity.
  - repeat (split; [vm_compute; reflexivity|]). vm_compute; reflexivity.
Qed.
Example C90_again_example : d_dirty (cleanup ins_coalesced) = [] /\ in_table (d_pols (cleanup ins_coalesced)) (insH ins_raw) = true /\
  returned (exec insH 10 3 (start (cleanup ins_coalesced)) (map Work (seq 0 partitions))) = true.
Proof. split; [reflexivity|]. split; vm_compute; reflexivity. Qed.
Example C90_killed_example : killed_after insH 2 nameA ins_raw empty_db <> empty_db /\ d_pols (killed_after insH 2 nameA ins_raw empty_db) = [] /\
  ingest insH true (policy_batch nameA ins_raw) (killed_after insH 2 nameA ins_raw empty_db) = Ok ins_db.
Proof. split; [intros E; apply (f_equal d_dirty) in E; discriminate E|]. split; [reflexivity|]. rewrite C90_killed by discriminate. unfold ins_db. rewrite ingest_policy. reflexivity. Qed.
Example C90_refused_example : insert_policy zs0 insH 32 10 3 (b_ "{""T"":""pc"",""O"":{}}") all_work 5 empty_db no_tree = Some (Err, empty_db, no_tree).
Proof. vm_compute. reflexivity. Qed.
(** ** What is not so *)
(** The process dies after the third statement: the policy is stored but not associated with its domain. A later run finds it stored and never
    completes it. *)
Theorem C90_killed_refuted : exists zs H text c raw, JsonStable.zones_law zs /\ (forall x, length (H x) = HashLength) /\
  policy_from_bytes zs text = Some (Ok c) /\ text_of zs c = Ok raw /\
  forall limit max_depth size es max k r d' k', 0 < size ->
  insert_policy zs H limit max_depth size text es max (killed_after H 3 (domain c) raw empty_db) k = Some (r, d', k') ->
  in_table (d_pols d') (H raw) = true /\ (forall x i, ~ In (x, i) (d_dp d')) /\ forall x ids, listing d' x ids -> ids = [].
Proof.
  exists zs0, insH, ins_text, ins_cert, ins_raw. split; [exact PropertiesJson.ex_zones_law|]. split; [exact insH_length|]. split; [exact ins_read|]. assert (T : text_of zs0 ins_cert = Ok ins_raw) by (vm_compute; reflexivity).
  split; [exact T|]. intros limit max_depth size es max k r d' k' Hp E.
  assert (K : keyed (killed_after insH 3 (domain ins_cert) ins_raw empty_db)).
  { cbn. repeat split; repeat (apply NoDup_cons; [intros []|]); apply NoDup_nil. }
  destruct (killed_between zs0 PropertiesJson.ex_zones_law insH limit max_depth size Hp ins_text ins_cert ins_raw empty_db k es max r d' k' ins_read T K eq_refl E) as (X1 & X2 & X3 & X4).
  split; [exact X4|]. split; [rewrite X3; intros x i []|]. intros x ids (cs & ps & _ & C & _ & P & Pm & _). rewrite X1, X2 in C. rewrite X3 in P.
  assert (N : forall t i, ~ DbCoalesce.covers t [] x i) by (intros t i L; induction L as [c L1 L2|]; [destruct L2|assumption]).
  destruct cs as [|i cs]; [|exfalso; apply (N [] i), C; left; reflexivity]. destruct ps as [|i ps]; [|exfalso; eapply N, P; left; reflexivity].
  apply Permutation_sym, Permutation_nil in Pm. exact Pm.
Qed.
(** On an empty tree the later run panics ("SMT tree root is nil"). *)
Example C90_killed_panics : exists d' k', insert_policy zs0 insH 32 10 3 ins_text all_work 5 (killed_after insH 3 nameA ins_raw empty_db) no_tree = Some (Panic, d', k').
Proof.
  assert (E : match insert_policy zs0 insH 32 10 3 ins_text all_work 5 (killed_after insH 3 nameA ins_raw empty_db) no_tree with Some (Panic, _, _) => true | _ => false end = true) by (vm_compute; reflexivity).
  destruct (insert_policy _ _ _ _ _ _ _ _ _ _) as [[[[| |] d'] k']|]; try discriminate. eauto.
Qed.
(** A policy certificate without a domain, like that of a root, is stored and listed under the empty name; no request leads to it. *)
Theorem C90_no_domain_refuted : exists zs text c, JsonStable.zones_law zs /\ policy_from_bytes zs text = Some (Ok c) /\
  forall psl name parts, whole_labels psl -> parse_domain_name psl name = Some parts -> ~ In (domain c) parts.
Proof.
  exists zs0, (b_ "{""T"":""*pc"",""O"":{""CanIssue"":true}}"). eexists. split; [exact PropertiesJson.ex_zones_law|]. split; [vm_compute; reflexivity|].
  intros psl name parts W E I. cbn in I. destruct (parse_whole psl name parts W E) as (pre & ls & C & _ & _ & _ & A). destruct (A _ I) as (j & J & Q).
  pose proof (lastn_clean j ls C J) as [N F]. destruct (lastn j ls) as [|l r]; [congruence|]. inversion F as [|? ? F1 _]; subst. destruct F1 as ((L & _) & _).
  destruct l as [|x l]; [cbn in L; lia|]. destruct r; discriminate.
Qed.
(** The id of a policy is the hash of the text that the command makes, not of the file; with the other reader of such files it is the hash of the file. *)
Theorem C90_two_ids_refuted : exists zs text c c', JsonStable.zones_law zs /\ policy_from_bytes zs text = Some (Ok c) /\ JsonModel.file_cert zs text = Some (Ok c') /\
  PolicyProofs.same_cert c c' /\ JsonModel.raw_of zs (JsonModel.OCert c') = Ok text /\ exists raw, JsonModel.raw_of zs (JsonModel.OCert c) = Ok raw /\ raw <> text.
Proof.
  exists zs0, (b_ "{""T"":""*pc"",""O"":{""Domain"":""a""}}"). eexists. eexists. split; [exact PropertiesJson.ex_zones_law|]. split; [vm_compute; reflexivity|]. split; [vm_compute; reflexivity|].
  split; [repeat split; constructor|]. split; [vm_compute; reflexivity|]. eexists. split; [vm_compute; reflexivity|]. discriminate.
Qed.

Print Assumptions C90_inserted_partial.
Print Assumptions C90_again.
Print Assumptions C90_refused.
Print Assumptions C90_one_text.
Print Assumptions C90_settled.
Print Assumptions C90_killed.
Print Assumptions C90_killed_refuted.
Print Assumptions C90_no_domain_refuted.
Print Assumptions C90_two_ids_refuted.
