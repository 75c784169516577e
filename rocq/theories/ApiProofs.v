(** Proofs about ApiModel: the payloads that a query finds, the ids in an answer, and that the payloads of the rows hash to the ids. *)
From Coq Require Import Permutation Sorted.
From Verif Require PolicyModel.
From Verif Require JsonText JsonTextProofs.
From Verif Require Import Base BaseLemmas UtilModel UtilIds ApiText ApiTextProofs DbModel DbTables DbIngest DbPrune DbCoalesce BundleModel BundleProofs.
From Verif Require Import TrieModel TrieSpec TrieMaps TrieHash TrieStore TrieBatch TrieUpdate TrieCodec TrieRead TrieSound TrieHistory TrieTop ClientModel DomainModel DomainSpec DomainProofs DomainTop SmtModel SmtProofs RoundModel RoundProofs ApiModel.

(** ** Queries *)
(** [p] is stored under [id] in a table that is asked. *)
Definition tables_of (w : which) (d : db) : list cert_row :=
  match w with Certificates => d_certs d | Policies => d_pols d | CertificatesAndPolicies => d_pols d ++ d_certs d end.
Definition stored (w : which) (d : db) (id p : bytes) : Prop := exists r, In r (tables_of w d) /\ cr_id r = id /\ cr_payload r = p.
Lemma wanted_in ids t i p : In (i, p) (wanted ids t) <-> In i ids /\ exists r, In r t /\ cr_id r = i /\ cr_payload r = p.
Proof.
  unfold wanted. rewrite in_map_iff. split.
  - intros (r & E & Hr). injection E as <- <-. apply filter_In in Hr. destruct Hr as [Hr He]. apply existsb_exists in He. destruct He as (j & Hj & E).
    apply beqb_eq in E. split; [rewrite E; exact Hj|]. eauto.
  - intros (Hi & r & Hr & <- & <-). exists r. split; [reflexivity|]. apply filter_In. split; [exact Hr|]. apply existsb_exists. exists (cr_id r). split; [exact Hi|apply beqb_refl].
Qed.
Lemma distinct_in l x : In x (distinct l) <-> In x l.
Proof.
  induction l as [|r l IH]; [tauto|]. cbn [distinct]. destruct (existsb _ l) eqn:E; [|cbn [In]; tauto]. rewrite IH. split; [right; assumption|].
  intros [<-|Hx]; [|exact Hx]. apply existsb_exists in E. destruct E as (q & Hq & Q). apply andb_prop in Q as [Q1 Q2]. apply beqb_eq in Q1, Q2.
  replace r with q; [exact Hq|]. destruct q, r. cbn in *. congruence.
Qed.
Lemma selected_in w d ids i p : In (i, p) (selected w d ids) <-> In i ids /\ stored w d i p.
Proof.
  unfold selected, stored, tables_of. destruct w; [apply wanted_in|apply wanted_in|]. rewrite distinct_in, in_app_iff, !wanted_in. split.
  - intros [(Hi & r & Hr & E)|(Hi & r & Hr & E)]; (split; [exact Hi|]); exists r; (split; [apply in_app_iff; tauto|exact E]).
  - intros (Hi & r & Hr & E). apply in_app_iff in Hr. destruct Hr as [Hr|Hr]; [left|right]; eauto.
Qed.
Lemma latest_fold rows id : forall m, let r := fold_left (fun m (r : bytes * bytes) => if beqb (fst r) id then Some (snd r) else m) rows m in
  (r = m /\ (forall p, ~ In (id, p) rows)) \/ exists p, r = Some p /\ In (id, p) rows.
Proof.
  induction rows as [|[i q] rows IH]; intros m; cbn [fold_left fst snd]; [left; split; [reflexivity|intros p []]|]. destruct (beqb i id) eqn:B.
  - apply beqb_eq in B. subst i. right. destruct (IH (Some q)) as [[E _]|(p & E & Hp)]; [exists q|exists p]; (split; [exact E|]); [left; reflexivity|right; exact Hp].
  - destruct (IH m) as [[E N]|(p & E & Hp)]; [left|right; exists p; split; [exact E|right; exact Hp]]. split; [exact E|]. intros p [Q|Q]; [|apply (N p Q)].
    injection Q as -> _. rewrite beqb_refl in B. discriminate.
Qed.
Lemma latest_some rows id p : latest rows id = Some p -> In (id, p) rows.
Proof. unfold latest. destruct (latest_fold rows id None) as [[-> _]|(q & -> & Hq)]; [discriminate|]. now intros [= <-]. Qed.
Lemma latest_none rows id : latest rows id = None -> forall p, ~ In (id, p) rows.
Proof. unfold latest. destruct (latest_fold rows id None) as [[_ N]|(q & E & Hq)]; [auto|]. cbv zeta in E. rewrite E. discriminate. Qed.

(** The data base answers: it refuses a statement or yields the selected rows in some order. *)
Definition answers_query (w : which) (most : nat) (d : db) (rows : list bytes -> option (list (bytes * bytes))) : Prop :=
  forall ids, if accepted_query most ids then exists l, rows ids = Some l /\ Permutation l (selected w d ids) else rows ids = None.
(** What a client gets for an id *)
Definition payload_right (w : which) (d : db) (id : bytes) (x : option bytes) : Prop :=
  match x with Some p => stored w d id p | None => forall p, ~ stored w d id p end.
Lemma query_within most ids : 1 <= length ids <= most -> accepted_query most ids = true.
Proof.
  intros B. unfold accepted_query. replace (length ids =? 0) with false by (symmetry; apply Nat.eqb_neq; lia).
  replace (length ids <=? most) with true by (symmetry; apply Nat.leb_le; lia). reflexivity.
Qed.
Theorem payloads_answered w most d rows text ids : answers_query w most d rows -> spells_ids text ids -> 1 <= length ids <= most ->
  exists body l, api_payloads rows text = Body body /\ read_payloads body = Some l /\ Forall2 (payload_right w d) ids l.
Proof.
  intros A S B. pose proof (A ids) as Q. rewrite (query_within most ids B) in Q. destruct Q as (rs & Er & P).
  apply spelled in S. destruct S as [M R]. unfold api_payloads. rewrite M. cbn [negb]. rewrite R. unfold retrieve. rewrite Er. cbn [option_map].
  exists (payload_text (map (latest rs) ids)), (map (latest rs) ids). split; [reflexivity|]. split; [apply payload_round_trip|].
  assert (Hall : forall i, In i ids -> payload_right w d i (latest rs i)).
  { intros i Hi. unfold payload_right. destruct (latest rs i) as [p|] eqn:E.
    - apply latest_some in E. apply (Permutation_in _ P) in E. apply selected_in in E. apply E.
    - intros p Hp. apply (latest_none _ _ E p). apply (Permutation_in _ (Permutation_sym P)). apply selected_in. auto. }
  clear - Hall. induction ids as [|i ids IH]; constructor; [apply Hall; left; reflexivity|]. apply IH. intros j Hj. apply Hall. right. exact Hj.
Qed.
Theorem payloads_refused w most d rows text : answers_query w most d rows ->
  (forall ids, spells_ids text ids -> ~ 1 <= length ids <= most) -> api_payloads rows text = BadRequest.
Proof.
  intros A N. unfold api_payloads. destruct (length text mod id_digits =? 0) eqn:M; [|reflexivity]. cbn [negb]. apply Nat.eqb_eq in M.
  destruct (read_ids (length text / id_digits) text) as [ids|] eqn:R; [|reflexivity]. unfold retrieve.
  specialize (N ids (proj2 (spelled text ids) (conj M R))). specialize (A ids). unfold accepted_query in A.
  destruct (Nat.eqb_spec (length ids) 0) as [Z|Z]; cbn [negb andb] in A; [rewrite A; reflexivity|].
  destruct (Nat.leb_spec (length ids) most) as [L|L]; [exfalso; apply N; lia|]. rewrite A. reflexivity.
Qed.

(** ** Rows whose payload hashes to the id *)
Lemma Permutation_in_iff {A} {l l' : list A} {x} : Permutation l l' -> In x l <-> In x l'.
Proof. intros P. split; apply Permutation_in; [|apply Permutation_sym]; exact P. Qed.
Section Hashed.
  Variable H : bytes -> bytes.
  Hypothesis Hlen : forall x, length (H x) = HashLength.
  Variables limit max_depth size : nat.
  Hypothesis size_pos : 0 < size.
  Variable G : bytes -> Prop.
  Definition hashed (d : db) : Prop :=
    (forall r, In r (d_certs d) -> cr_id r = H (cr_payload r)) /\ (forall r, In r (d_pols d) -> cr_id r = H (cr_payload r)).
  (** A batch that also carries the hashes of its certificates as ids *)
  Definition hashed_batch (d : db) (b : batch) : Prop := batch_ok H d b /\ b_ids b = map H (b_certs b).
  Lemma kept_map {A B} (f : A -> B) mask : forall l, kept mask (map f l) = map f (kept mask l).
  Proof. induction mask as [|v mask IH]; intros [|x l]; try reflexivity. cbn [map]. rewrite !kept_cons, IH. destruct v; reflexivity. Qed.
  Lemma rows_hashed ids : forall parents exps payloads rows, cert_rows ids parents exps payloads = Ok rows -> ids = map H payloads ->
    forall r, In r rows -> cr_id r = H (cr_payload r).
  Proof.
    induction ids as [|i ids IH]; intros [|p ps] [|e es] [|y ys] rows E M r Hr; cbn in E; try discriminate; try (injection E as <-; destruct Hr).
    destruct (cert_rows ids ps es ys) eqn:Er; try discriminate. injection E as <-. cbn [map] in M. injection M as M1 M2. destruct Hr as [<-|Hr]; [exact M1|].
    eapply IH; eassumption.
  Qed.
  Lemma stmts_hashed rows ps pols d : hashed d -> (forall r, In r rows -> cr_id r = H (cr_payload r)) -> hashed (all_stmts H rows ps pols d).
  Proof.
    intros [C P] R. split.
    - intros r Hr. change (d_certs (all_stmts H rows ps pols d)) with (insert_ignore cert_key (d_certs d) rows) in Hr.
      apply (ignore_from cr_id beqb beqb_eq cert_key cert_key_ok) in Hr. destruct Hr as [Hr|[Hr _]]; auto.
    - intros r Hr. change (d_pols (all_stmts H rows ps pols d)) with (insert_replace cert_key (d_pols d) (map (fun p => mk_cr (H (snd p)) [] far_future (snd p)) pols)) in Hr.
      apply (replace_from cr_id beqb beqb_eq cert_key cert_key_ok) in Hr. destruct Hr as [[Hr _]|Hr]; [auto|]. apply in_map_iff in Hr. destruct Hr as (p & <- & _). reflexivity.
  Qed.
  (** What of it matters here *)
  Definition carries_hashes (b : batch) : Prop := aligned (b_names b) (b_ids b) (b_parents b) (b_certs b) (b_exps b) /\ b_ids b = map H (b_certs b).
  Lemma ingest_hashed keep b d d' : hashed d -> carries_hashes b -> ingest H keep b d = Ok d' -> hashed d'.
  Proof.
    intros Hd [Ha Hb] E. pose proof Ha as (B1 & B2 & B3 & B4).
    assert (Hgen : forall mask pols sc, length mask = length (b_ids b) ->
      insert_certs H (kept mask (b_names b)) (kept mask (b_ids b)) (kept mask (b_parents b)) (b_exps b) (kept mask (b_certs b)) = Ok sc ->
      d' = run (sc ++ insert_policies H pols) d -> hashed d').
    { intros mask pols sc Hm Es ->. assert (Hk : length (kept mask (b_names b)) = length (kept mask (b_ids b))) by (apply kept_length; lia).
      destruct (ingest_effect H _ _ _ _ _ pols _ d Hk Es) as (rows & ps & Er & Ep & ->). apply stmts_hashed; [exact Hd|].
      apply (rows_hashed _ _ _ _ _ Er). rewrite Hb. apply kept_map. }
    unfold ingest in E. destruct keep.
    - rewrite (keep_existing_eq H d _ _ _ _ _ _ Ha) in E. destruct (insert_certs _ _ _ _ _ _) as [sc| |] eqn:Es; try discriminate. injection E as <-.
      eapply Hgen; [apply mask_length | exact Es | reflexivity].
    - unfold overwrite in E. destruct (insert_certs _ _ _ _ _ _) as [sc| |] eqn:Es; try discriminate. injection E as <-.
      assert (Hall : forall A (l : list A), length l = length (b_ids b) -> kept (repeat false (length (b_ids b))) l = l).
      { intros A l Hl. rewrite <- Hl. clear. induction l as [|x l IH]; [reflexivity|]. cbn [length repeat]. rewrite kept_cons, IH. reflexivity. }
      eapply (Hgen (repeat false (length (b_ids b)))); [apply repeat_length | | reflexivity]. rewrite !Hall by congruence. exact Es.
  Qed.
  Lemma prune_hashed cut d s n : hashed d -> prune_stmts max_depth cut d = Ok s -> hashed (run (firstn n s) d).
  Proof.
    intros [C P] E. destruct (stmts_shape _ _ _ _ E) as (gone & touched & -> & Hg & Ht).
    assert (H2 : hashed (delete_certs gone (load_dirty touched d))).
    { split; [|exact P]. intros r Hr. apply C. apply (delete_in gone (load_dirty touched d) cut r Hg) in Hr. apply Hr. }
    destruct n as [|[|n]]; cbn [firstn run fold_left]; [split; assumption | split; assumption |]. rewrite firstn_nil. cbn [fold_left]. exact H2.
  Qed.
  Lemma server_mono (al al' : bool -> db -> batch -> Prop) m d k : (forall kp d b, al kp d b -> al' kp d b) ->
    server H limit max_depth size al G m d k -> server H limit max_depth size al' G m d k.
  Proof.
    intros Ha Hs. induction Hs; [apply server_start|eapply server_ingest; eauto|eapply server_prune; eauto|eapply server_coalesce; eauto|eapply server_killed; eauto|eapply server_update; eauto].
  Qed.
  Lemma carried_hashed (al : bool -> db -> batch -> Prop) m d k : (forall kp d b, al kp d b -> carries_hashes b) ->
    (forall m d k, server H limit max_depth size al G m d k -> keyed d) -> server H limit max_depth size al G m d k -> hashed d.
  Proof.
    intros Ha Hk Hs.
    assert (Hco : forall d es, keyed d -> hashed d -> hashed (fst (exec H max_depth size (start d) es))).
    { intros d0 es K [C P]. pose proof (exec_inv H max_depth size size_pos d0 K es (start d0) (start_inv H max_depth d0 K)) as (_ & (S1 & S2 & _) & _).
      split; [rewrite S1; exact C|rewrite S2; exact P]. }
    induction Hs as [|m d k keep b d' Hs IH Hb E|m d k cut s n Hs IH E|m d k es Hs IH|m d k max m' k' Hs IH Hl Hm E|m d k es max m' k' Hs IH Hr d1 Hl Hm E].
    - split; intros r [].
    - eapply ingest_hashed; [exact IH|eapply Ha; exact Hb|exact E].
    - eapply prune_hashed; eassumption.
    - apply Hco; [eapply Hk; exact Hs|exact IH].
    - exact IH.
    - exact (Hco d es (Hk _ _ _ Hs) IH).
  Qed.
  Lemma server_hashed m d k : server H limit max_depth size (fun _ => hashed_batch) G m d k -> hashed d.
  Proof.
    apply carried_hashed.
    - intros _ d0 b [(B1 & B2 & B3 & B4 & _) Hb]. split; [repeat split; assumption|exact Hb].
    - intros m0 d0 k0 Hs0. apply (ok_keyed H d0). apply (server_inv H Hlen limit max_depth size size_pos G m0 d0 k0). eapply server_mono; [|exact Hs0]. intros kp d1 b [Hb _]. exact Hb.
  Qed.
  (** Chains of certificates carry the hashes of the certificates. *)
  Lemma chain_rows_hashed ch : forall c r, In r (chain_rows H c ch) -> row_id r = H (raw (row_cert r)).
  Proof. induction ch as [|p ch IH]; intros c r; cbn [chain_rows]; [intros [<-|[]]; reflexivity|]. intros [<-|Hr]; [reflexivity|eapply IH; exact Hr]. Qed.
  Lemma leaf_rows_hashed c ch r : In r (leaf_rows H c ch) -> row_id r = H (raw (row_cert r)).
  Proof. destruct ch as [|p ch]; cbn [leaf_rows]; [intros [<-|[]]; reflexivity|]. intros [<-|Hr]; [reflexivity|eapply chain_rows_hashed; exact Hr]. Qed.
  Lemma chain_batch_carries not_after l : carries_hashes (chain_batch H not_after l).
  Proof.
    unfold carries_hashes, chain_batch, aligned. cbn [b_names b_ids b_parents b_certs b_exps]. rewrite !map_length. split; [repeat split; reflexivity|].
    rewrite map_map. apply map_ext_in. intros r Hr. apply (unfolded H) in Hr. destruct Hr as (c & ch & _ & Hr). eapply leaf_rows_hashed. exact Hr.
  Qed.
  Lemma chain_hashed not_after (U leaf : cert -> Prop) m d k : (forall c c', U c -> U c' -> H (raw c) = H (raw c') -> c = c') ->
    server H limit max_depth size (chain_batches H not_after U leaf) G m d k -> hashed d.
  Proof.
    intros Hu. apply carried_hashed.
    - intros kp d0 b (_ & l & _ & ->). apply chain_batch_carries.
    - intros m0 d0 k0 Hs0. apply (ok_keyed H d0). apply (server_inv H Hlen limit max_depth size size_pos G m0 d0 k0).
      apply (chain_server H Hlen limit max_depth size size_pos G not_after U leaf Hu m0 d0 k0 Hs0).
  Qed.

  (** ** The answer with its lists *)
  Hypothesis Hcf : collision_free H G.
  Hypothesis Hnz : forall x, G x -> H x <> zero_hash.
  Lemma view_fill d sig r : client_view (fill d sig r) = r.
  Proof.
    unfold client_view, fill. cbn [a_entry a_poi p_type p_path p_root p_key p_value]. destruct r as [e [pt pa pr pk pv]].
    cbn [ClientModel.entry the_poi proof_type proof_path proof_root proof_key proof_value].
    f_equal; [destruct e as [[x1 x2 x3]|]; reflexivity|]. f_equal; [rewrite map_map; apply map_id|destruct pk; reflexivity|destruct pv; reflexivity].
  Qed.
  (** The ids that a client takes out of an answer (common.BytesToIDs) *)
  Definition ids_in (s : option bytes) : list bytes := bytes_to_ids (PolicyModel.content s).
  (** The answer for [name] is accepted and its lists are exactly the certificates and policies that the tables hold for the name. *)
  Definition right_answer (d : db) (name : bytes) (a : answer) : Prop :=
    exists e, a_entry a = Some e /\ e_name e = name /\ e_id e = H name /\
      NoDup (ids_in (e_certs e)) /\ (forall i, In i (ids_in (e_certs e)) <-> lists (d_certs d) (d_dc d) (H name) i) /\
      NoDup (ids_in (e_pols e)) /\ (forall i, In i (ids_in (e_pols e)) <-> lists (d_pols d) (d_dp d) (H name) i) /\
      match ids_in (e_certs e) ++ ids_in (e_pols e) with
      | [] => verify_proof_by_domain H (client_view a) = Ok (PoA, true)
      | l => verify_proof_by_domain H (client_view a) = Ok (PoP, true) /\
             exists ids, Permutation ids l /\ StronglySorted id_le ids /\ e_value e = H (concat ids)
      end.
  Definition sized (l : list bytes) : Prop := Forall (fun i => length i = HashLength) l.
  Lemma row_lists d x : tables_ok H d -> fresh_row H d x -> exists cs ps,
    NoDup cs /\ (forall i, In i cs <-> lists (d_certs d) (d_dc d) x i) /\ NoDup ps /\ (forall i, In i ps <-> lists (d_pols d) (d_dp d) x i) /\
    sized cs /\ sized ps /\ ids_in (pr_certs (row_of d x)) = cs /\ ids_in (pr_pols (row_of d x)) = ps /\
    length (null_id (pr_certs_id (row_of d x))) = 32 /\ length (null_id (pr_pols_id (row_of d x))) = 32 /\
    entry_of d x = (x, concat (sort_ids (cs ++ ps))).
  Proof.
    intros Hok (cs & ps & (l1 & C1 & C2 & C3) & (l2 & P1 & P2 & P3) & Hr).
    assert (L1 : Forall (fun i : bytes => length i = IDSize) l1).
    { apply Forall_forall. intros i Hi. apply C1 in Hi. apply lists_stored in Hi. destruct Hi as (c & Hc & <-). apply (ok_ids H d Hok). exact Hc. }
    assert (L2 : Forall (fun i : bytes => length i = IDSize) l2).
    { apply Forall_forall. intros i Hi. apply P1 in Hi. apply lists_stored in Hi. destruct Hi as (c & Hc & <-). apply (ok_pols H d Hok). exact Hc. }
    exists l1, l2. split; [apply strict_nodup; exact C2|]. split; [exact C1|]. split; [apply strict_nodup; exact P2|]. split; [exact P1|].
    split; [exact L1|]. split; [exact L2|].
    assert (Hn : forall l (v : option bytes), Forall (fun i : bytes => length i = IDSize) l -> v = match l with [] => None | _ => Some (concat l) end -> ids_in v = l).
    { intros l v Hl ->. destruct l as [|i l]; [reflexivity|]. exact (ids_round_trip (i :: l) Hl). }
    unfold row_of, entry_of. destruct (ok_keyed H d Hok) as (_ & _ & _ & K4 & _).
    change (find (fun r => beqb (fst r) x) (d_pay d)) with (look fst beqb x (d_pay d)). destruct (look fst beqb x (d_pay d)) as [[y r]|] eqn:El.
    - pose proof (look_in fst beqb beqb_eq _ _ _ El) as [Hi Hf]. cbn [fst] in Hf. subst y. apply Hr in Hi. destruct Hi as [_ ->]. unfold payload_of, all_ids. cbn [snd pr_certs pr_pols pr_certs_id pr_pols_id].
      rewrite (Hn l1 cs L1 C3), (Hn l2 ps L2 P3). change (bytes_to_ids (null_bytes cs)) with (ids_in cs). change (bytes_to_ids (null_bytes ps)) with (ids_in ps).
      rewrite (Hn l1 cs L1 C3), (Hn l2 ps L2 P3). split; [reflexivity|]. split; [reflexivity|].
      split; [destruct cs; [apply Hlen|reflexivity]|]. split; [destruct ps; [apply Hlen|reflexivity]|reflexivity].
    - assert (Hnone : cs = None /\ ps = None).
      { destruct cs as [v|], ps as [w|]; auto; exfalso; apply (look_none fst beqb beqb_eq) in El; apply El; apply in_map_iff; eexists; (split; [|apply Hr; split; [|reflexivity]]); try reflexivity; try (left; discriminate); right; discriminate. }
      destruct Hnone as [-> ->]. destruct l1; [|discriminate]. destruct l2; [|discriminate]. repeat split; reflexivity.
  Qed.
  Lemma pop_type r : verify_proof_by_domain H r = Ok (PoP, true) -> (proof_type (the_poi r) =? PoP)%Z = true.
  Proof.
    unfold verify_proof_by_domain. destruct (ClientModel.entry r) as [e|]; [|discriminate]. destruct (proof_type (the_poi r) =? PoP)%Z; [reflexivity|].
    destruct (verify_non_inclusion _ _ _ _ _ _); discriminate.
  Qed.
  Lemma poa_type r : verify_proof_by_domain H r = Ok (PoA, true) -> (proof_type (the_poi r) =? PoP)%Z = false.
  Proof.
    unfold verify_proof_by_domain. destruct (ClientModel.entry r) as [e|]; [|discriminate]. destruct (proof_type (the_poi r) =? PoP)%Z; [|reflexivity].
    destruct (beqb _ _); [|discriminate]. destruct (verify_inclusion _ _ _ _ _); discriminate.
  Qed.
  Lemma fill_right d m sig name r : tables_ok H d -> ~ In (H name, false) (d_dirty d) -> synced H d m (H name) -> answers H m name r ->
    right_answer d name (fill d sig r) /\ (JsonText.valid_utf8 name -> JsonModel.int64 (proof_type (the_poi r)) = true -> answer_ok (fill d sig r)).
  Proof.
    intros Hok Hd Hs Ha. destruct (row_lists d (H name) Hok (ok_rows H d Hok _ Hd)) as (cs & ps & N1 & I1 & N2 & I2 & S1 & S2 & E1 & E2 & Z1 & Z2 & Ee).
    unfold synced in Hs. rewrite Ee in Hs. cbn [snd] in Hs. unfold answers in Ha. unfold right_answer. rewrite view_fill.
    assert (Hp : forall l : list bytes, sized l -> l <> [] -> concat (sort_ids l) <> []).
    { intros l Sl Nl X. pose proof (sort_perm l) as P. destruct (sort_ids l) as [|i q] eqn:Q; [apply Permutation_nil in P; contradiction|].
      assert (Si : length i = HashLength). { unfold sized in Sl. rewrite Forall_forall in Sl. apply Sl. eapply Permutation_in; [exact P|]. left. reflexivity. }
      cbn in X. apply app_eq_nil in X. destruct X as [-> _]. discriminate Si. }
    assert (Hsz : sized (cs ++ ps)) by (apply Forall_app; split; assumption).
    destruct (cs ++ ps) as [|i l] eqn:Ecp.
    - cbn in Hs. rewrite Hs in Ha. destruct Ha as [He Hv]. apply app_eq_nil in Ecp. destruct Ecp as [-> ->]. pose proof (poa_type r Hv) as Ht.
      unfold fill. rewrite He, Ht. cbn [option_map de_name de_id de_value a_entry]. split.
      + eexists. split; [reflexivity|]. cbn [e_name e_id e_certs e_pols no_lists pr_certs pr_pols e_value]. repeat split; try reflexivity; try assumption; try (apply I1); try (apply I2).
      + intros V T. split; [|exact T]. cbn [a_entry]. repeat split; try assumption; cbn [e_id e_value e_certs_id e_pols_id no_lists pr_certs_id pr_pols_id null_id]; try reflexivity. apply Hlen.
    - assert (Hne : concat (sort_ids (i :: l)) <> []) by (apply Hp; [exact Hsz|discriminate]).
      destruct (concat (sort_ids (i :: l))) as [|y p] eqn:Ec; [contradiction|]. rewrite Hs in Ha. destruct Ha as [He Hv]. pose proof (pop_type r Hv) as Ht.
      unfold fill. rewrite He, Ht. cbn [option_map de_name de_id de_value a_entry]. split.
      + eexists. split; [reflexivity|]. cbn [e_name e_id e_certs e_pols e_value]. rewrite E1, E2. split; [reflexivity|]. split; [reflexivity|]. split; [exact N1|]. split; [exact I1|].
        split; [exact N2|]. split; [exact I2|]. rewrite Ecp. split; [exact Hv|]. exists (sort_ids (i :: l)). split; [apply sort_perm|]. split; [apply sort_sorted|]. rewrite Ec. reflexivity.
      + intros V T. split; [|exact T]. cbn [a_entry]. repeat split; try assumption; cbn [e_id e_value e_certs_id e_pols_id]; apply Hlen.
  Qed.
  (** ** All parts of a domain *)
  Lemma part_type payload limit' root name s r s' : get_proof_part H payload limit' root name s = (Ok r, s') -> JsonModel.int64 (proof_type (the_poi r)) = true.
  Proof.
    unfold get_proof_part, bind. destruct (trie_merkle_proof limit' root (H name) s) as [[[[[ap inc] pk] pv]| |] s1]; try discriminate.
    cbn. intros E. injection E as <- _. cbn. destruct inc; reflexivity.
  Qed.
  Lemma parts_answer payload rlimit m names : forall s, represents H G m s -> (forall n, In n names -> forall v, lookup m (H n) = Some v -> payload (H n) = v) ->
    runs (get_proofs H payload rlimit (root_of H m) names) s (fun rs s' =>
      Forall2 (fun n r => answers H m n r /\ JsonModel.int64 (proof_type (the_poi r)) = true) names rs /\ represents H G m s').
  Proof.
    induction names as [|n names IH]; intros s Hr Hp; cbn [get_proofs].
    - apply runs_ret. split; [constructor | exact Hr].
    - apply runs_bind. destruct (part_answers H Hlen rlimit G Hcf payload m s n Hr (Hp n (or_introl eq_refl))) as (r & s' & Hg & Ha & Hr').
      exists r, s'. split; [exact Hg|]. apply runs_bind. eapply runs_mono; [|apply IH; [exact Hr'|intros x Hx; apply Hp; right; exact Hx]].
      cbv beta. intros rs s2 [Hrs Hr2]. apply runs_ret. split; [constructor; [split; [exact Ha|eapply part_type; exact Hg]|exact Hrs] | exact Hr2].
  Qed.
  Lemma alnum_ascii c : is_alnum c = true -> JsonText.ascii c = true.
  Proof. destruct c; intros E; try discriminate E; reflexivity. Qed.
  Lemma part_utf8 psl domain parts p : whole_labels psl -> parse_domain_name psl domain = Some parts -> In p parts -> JsonText.valid_utf8 p.
  Proof.
    intros Hw Hp Hi. destruct (parse_whole psl domain parts Hw Hp) as (pre & ls & Hc & _ & _ & _ & Hall). destruct (Hall p Hi) as (j & Hj & ->).
    destruct (lastn_clean j ls Hc Hj) as [_ Hf]. apply JsonTextProofs.ascii_valid. apply forallb_forall. intros c X. apply in_join in X as [->|(l & X & Y)]; [reflexivity|].
    rewrite Forall_forall in Hf. destruct (Hf l X) as (_ & Hch & _). destruct (Hch c Y) as [A| ->]; [now apply alnum_ascii|reflexivity].
  Qed.
  Theorem proof_text m d k rlimit sig psl domain parts : server H limit max_depth size (fun _ => batch_ok H) G m d k -> whole_labels psl ->
    parse_domain_name psl domain = Some parts -> (forall p, In p parts -> ~ In (H p) (map fst (d_dirty d))) ->
    exists body l, api_proof H psl d k rlimit sig domain = Body body /\ read_chain body = Some l /\ Forall2 (right_answer d) parts l.
  Proof.
    intros Hs Hw Hp Hn. destruct (server_inv H Hlen limit max_depth size size_pos G m d k Hs) as (I1 & I2 & I3).
    destruct (reach_on_disk H Hlen limit G Hcf Hnz m k I2) as [Hd Hroot].
    unfold api_proof, get_proof. rewrite Hp, Hroot.
    destruct (parts_answer (fun id => H (snd (entry_of d id))) rlimit m parts (new_trie k) Hd) as (rs & s' & Hrun & Hf & _).
    { intros n Hi v Hv. specialize (I3 _ (Hn n Hi)). unfold synced in I3. rewrite Hv in I3. destruct (snd (entry_of d (H n))); congruence. }
    rewrite Hrun. cbn [fst]. assert (Hboth : Forall2 (right_answer d) parts (map (fill d sig) rs) /\ Forall answer_ok (map (fill d sig) rs)).
    { assert (Hu : forall p, In p parts -> JsonText.valid_utf8 p) by (intros p Hi; eapply part_utf8; eassumption). clear Hp Hrun. induction Hf as [|n r ns rs [Ha Ht] Hf IH]; [split; constructor|].
      assert (Hnd : ~ In (H n) (map fst (d_dirty d))) by (apply Hn; left; reflexivity).
      destruct (fill_right d m sig n r I1) as [F1 F2]; [intros X; apply Hnd; apply in_map_iff; exists (H n, false); auto|apply I3; exact Hnd|exact Ha|].
      destruct IH as [J1 J2]; [intros p Hi; apply Hn; right; exact Hi|intros p Hi; apply Hu; right; exact Hi|]. cbn [map]. split; constructor; auto. apply F2; [apply Hu; left; reflexivity|exact Ht]. }
    destruct Hboth as [B1 B2]. exists (chain_text (map (fill d sig) rs)), (map (fill d sig) rs). split; [reflexivity|]. split; [apply chain_round_trip; exact B2|exact B1].
  Qed.

  (** ** Fetching the payloads of the ids in an answer *)
  Lemma spell_all ids : Forall (fun i : bytes => length i = 32) ids -> spells_ids (concat (map hex_encode ids)) ids.
  Proof. intros F. induction F as [|i ids L F IH]; [constructor|]. cbn [map concat]. constructor; [apply encode_spells|exact L|exact IH]. Qed.
  Theorem fetched w most d rows ids : hashed d -> (forall i, In i ids -> exists r, In r (tables_of w d) /\ cr_id r = i) ->
    answers_query w most d rows -> 1 <= length ids <= most ->
    exists body l, api_payloads rows (concat (map hex_encode ids)) = Body body /\ read_payloads body = Some (map Some l) /\
      map H l = ids /\ forall p, In p l -> exists r, In r (tables_of w d) /\ cr_payload r = p.
  Proof.
    intros [Hc Hp] Hst Hq Hb. assert (Hh : forall r, In r (tables_of w d) -> cr_id r = H (cr_payload r)).
    { intros r Hr. destruct w; cbn [tables_of] in Hr; [auto|auto|]. apply in_app_iff in Hr. destruct Hr; auto. }
    assert (Hl : Forall (fun i : bytes => length i = 32) ids). { apply Forall_forall. intros i Hi. destruct (Hst i Hi) as (r & Hr & <-). rewrite (Hh r Hr). apply Hlen. }
    destruct (payloads_answered w most d rows _ ids Hq (spell_all ids Hl) Hb) as (body & l & E1 & E2 & F).
    assert (X : exists q, l = map Some q /\ map H q = ids /\ forall p, In p q -> exists r, In r (tables_of w d) /\ cr_payload r = p).
    { clear E1 E2 Hl Hb. induction F as [|i x ids l P F IH]; [exists []; repeat split; intros p []|]. destruct IH as (q & -> & Q2 & Q3); [intros j Hj; apply Hst; right; exact Hj|].
      destruct x as [p|].
      - destruct P as (r & Hr & Ei & Epl). exists (p :: q). cbn [map]. rewrite Q2. split; [reflexivity|]. split; [f_equal; rewrite <- Epl, <- Hh by exact Hr; exact Ei|].
        intros p' [<-|Hp']; [eauto|auto].
      - exfalso. destruct (Hst i (or_introl eq_refl)) as (r & Hr & Ei). apply (P (cr_payload r)). exists r. auto. }
    destruct X as (q & -> & Q2 & Q3). exists body, q. auto.
  Qed.
  Theorem right_fetched d name a e w most rows ids : hashed d -> right_answer d name a -> a_entry a = Some e -> answers_query w most d rows -> 1 <= length ids <= most ->
    (w = Certificates /\ Permutation ids (ids_in (e_certs e)) \/ w = Policies /\ Permutation ids (ids_in (e_pols e)) \/
     w = CertificatesAndPolicies /\ Permutation ids (ids_in (e_certs e) ++ ids_in (e_pols e))) ->
    exists body l, api_payloads rows (concat (map hex_encode ids)) = Body body /\ read_payloads body = Some (map Some l) /\
      map H l = ids /\ forall p, In p l -> exists r, In r (tables_of w d) /\ cr_payload r = p.
  Proof.
    intros Hh (e' & E & _ & _ & _ & I1 & _ & I2 & _) He Hq Hb Hw. assert (e' = e) by congruence. subst e'. eapply fetched; [exact Hh| |exact Hq|exact Hb].
    assert (C : forall i, In i (ids_in (e_certs e)) -> exists r, In r (d_certs d) /\ cr_id r = i) by (intros i Hi; apply I1 in Hi; apply lists_stored in Hi; exact Hi).
    assert (P : forall i, In i (ids_in (e_pols e)) -> exists r, In r (d_pols d) /\ cr_id r = i) by (intros i Hi; apply I2 in Hi; apply lists_stored in Hi; exact Hi).
    intros i Hi. destruct Hw as [[-> Pm]|[[-> Pm]|[-> Pm]]]; apply (Permutation_in _ Pm) in Hi; cbn [tables_of]; [auto|auto|].
    apply in_app_iff in Hi. destruct Hi as [Hi|Hi]; [destruct (C i Hi) as (r & Hr & X)|destruct (P i Hi) as (r & Hr & X)]; exists r; (split; [apply in_app_iff; tauto|exact X]).
  Qed.
  (** A client that also compares the id with the name and the value with the lists *)
  Lemma ids_sized b : sized (bytes_to_ids b).
  Proof.
    unfold sized, bytes_to_ids. assert (Hg : forall n b, n * IDSize <= length b -> Forall (fun i : bytes => length i = IDSize) (take_ids n b)).
    { induction n as [|n IH]; intros c Hc; cbn [take_ids]; [constructor|]. constructor; [rewrite firstn_length; unfold IDSize in *; lia|].
      apply IH. rewrite skipn_length. unfold IDSize in *. lia. }
    apply Hg. rewrite Nat.mul_comm. apply Nat.mul_div_le. discriminate.
  Qed.
  Theorem lists_bound m d k a e ids : server H limit max_depth size (fun _ => batch_ok H) G m d k -> ~ In (H (e_name e)) (map fst (d_dirty d)) ->
    a_entry a = Some e -> e_id e = H (e_name e) -> Permutation ids (ids_in (e_certs e) ++ ids_in (e_pols e)) -> e_value e = H (concat ids) ->
    let p := the_poi (client_view a) in
    proof_root p = Some (root_of H m) -> legal_path (proof_path p) -> G (e_id e ++ e_value e ++ [depth_byte (length (proof_path p))]) ->
    (forall s, In s (path_strings H (proof_path p) 0 (length (proof_path p)) (e_id e) (H (e_id e ++ e_value e ++ [depth_byte (length (proof_path p))]))) -> G s) ->
    G (concat ids) -> G (snd (entry_of d (H (e_name e)))) -> verify_proof_by_domain H (client_view a) = Ok (PoP, true) ->
    forall i, In i (ids_in (e_certs e) ++ ids_in (e_pols e)) <-> lists (d_certs d) (d_dc d) (e_id e) i \/ lists (d_pols d) (d_dp d) (e_id e) i.
  Proof.
    intros Hs Hn He Hi Pm Hv p Hr Hl HG1 HG2 HG3 HG4 Hver. destruct (server_inv H Hlen limit max_depth size size_pos G m d k Hs) as (I1 & I2 & I3).
    destruct (reach_on_disk H Hlen limit G Hcf Hnz m k I2) as [(R1 & R2 & R3 & _) _].
    assert (Hl' : TrieSpec.lookup m (e_id e) = Some (e_value e)).
    { assert (Ev : client_view a = mk_response (Some (mk_entry (e_name e) (e_id e) (e_value e))) p) by (unfold p, client_view; rewrite He; reflexivity).
      rewrite Ev in Hver. apply (client_presence H Hlen G Hcf m (mk_entry (e_name e) (e_id e) (e_value e)) p); cbn [de_id de_value]; auto; [apply map_top; assumption| |].
      - rewrite Hi. apply Hlen.
      - rewrite Hv. apply Hlen. }
    specialize (I3 _ Hn). unfold synced in I3. rewrite <- Hi, Hl' in I3.
    assert (Hd : ~ In (H (e_name e), false) (d_dirty d)). { intros X. apply Hn. apply in_map_iff. eexists. split; [|exact X]. reflexivity. }
    destruct (row_lists d (H (e_name e)) I1 (ok_rows H d I1 _ Hd)) as (cs & ps & _ & C & _ & P & S1 & S2 & _ & _ & _ & _ & Ee).
    rewrite Ee in HG4. rewrite Hi, Ee in I3. cbn [snd] in I3, HG4.
    assert (Heq : concat ids = concat (sort_ids (cs ++ ps))).
    { apply (proj1 Hcf); [exact HG3|exact HG4|]. destruct (concat (sort_ids (cs ++ ps))); congruence. }
    assert (Sids : Forall (fun i : bytes => length i = IDSize) ids).
    { eapply Permutation_Forall; [apply Permutation_sym; exact Pm|]. apply Forall_app. split; apply ids_sized. }
    assert (Ss : Forall (fun i : bytes => length i = IDSize) (sort_ids (cs ++ ps))).
    { eapply Permutation_Forall; [apply Permutation_sym, sort_perm|]. apply Forall_app. split; assumption. }
    assert (Hids : ids = sort_ids (cs ++ ps)).
    { rewrite <- (ids_round_trip ids Sids), <- (ids_round_trip _ Ss). unfold ids_to_bytes. rewrite Heq. reflexivity. }
    intros i. rewrite <- Hi in C, P. rewrite <- C, <- P, <- in_app_iff. rewrite <- (Permutation_in_iff Pm), Hids. apply Permutation_in_iff, sort_perm.
  Qed.
End Hashed.
