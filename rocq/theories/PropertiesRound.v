(** Property theorems C19 (payload) and C69: the rounds of the map server from ingestion to the answer a client accepts, for the model
    in RoundModel.v. *)
From Coq Require Import Permutation Sorted.
From Verif Require Import Base BaseLemmas UtilModel UtilIds DbModel DbTables DbIngest DbPrune DbCoalesce BundleModel BundleProofs.
From Verif Require Import Sha256 TrieModel TrieSpec TrieMaps TrieExample TrieRefute ClientModel SmtModel SmtProofs PropertiesSmt RoundModel RoundProofs.

(** * C19: the payload of a domain whose columns hold the glued ids [cs] and [ps]: all of them, sorted, glued. *)
Definition glued_ids (ids : list bytes) : option bytes := match ids with [] => None | _ => Some (concat ids) end.
Theorem C19_payload d x cs ps c' p' : NoDup (map fst (d_pay d)) ->
  Forall (fun i => length i = 32) cs -> Forall (fun i => length i = 32) ps ->
  In (x, mk_pr (glued_ids cs) c' (glued_ids ps) p') (d_pay d) ->
  exists ids, Permutation ids (cs ++ ps) /\ StronglySorted (fun a b => bcmp a b <> Gt) ids /\ entry_of d x = (x, concat ids).
Proof.
  intros Hn Hc Hp Hi. exists (sort_ids (cs ++ ps)). split; [apply sort_perm|]. split; [apply sort_sorted|]. unfold entry_of. f_equal.
  change (find (fun r => beqb (fst r) x) (d_pay d)) with (look fst beqb x (d_pay d)).
  pose proof (in_look fst beqb beqb_eq _ _ Hn Hi) as El. cbn [fst] in El. rewrite El. unfold payload_of, all_ids. cbn [snd pr_certs pr_pols].
  assert (Hg : forall l, Forall (fun i : bytes => length i = 32) l -> bytes_to_ids (null_bytes (glued_ids l)) = l)
    by (intros l Hl; destruct l as [|i l]; [reflexivity | exact (ids_round_trip (i :: l) Hl)]).
  rewrite (Hg cs Hc), (Hg ps Hp). reflexivity.
Qed.
Theorem C19_no_payload d x : ~ In x (map fst (d_pay d)) -> entry_of d x = (x, []).
Proof.
  intros Hn. unfold entry_of. f_equal. change (find (fun r => beqb (fst r) x) (d_pay d)) with (look fst beqb x (d_pay d)).
  apply (look_none fst beqb beqb_eq) in Hn. rewrite Hn. reflexivity.
Qed.
Example C19_payload_example : let d := set_pay [(kA, mk_pr (glued_ids [certA; repeat x33 32]) None (glued_ids [certB]) None)] empty_db in
  NoDup (map fst (d_pay d)) /\ entry_of d kA = (kA, concat [certA; certB; repeat x33 32]) /\ entry_of d kB = (kB, []).
Proof. split; [repeat constructor; intros [] | split; vm_compute; reflexivity]. Qed.

(** * C69. In every state that rounds lead to, the answer for a name that is not marked dirty is accepted by the client and speaks about
    exactly the certificates and policies that the tables hold for the name: [listing] are the ids, sorted, of the certificates
    associated with the name, of their stored ancestors, and of its policies. Partial: [batch_ok] of each batch, [legal_update] of each
    tree update, no crash inside an ingestion (C22), and crashes of a tree update only after its first statement (C21). *)
Section C69.
  Variable H : bytes -> bytes.
  Variables limit max_depth size : nat.
  Variable G : bytes -> Prop.
  Definition answered (d : db) (k : disk) (rlimit : nat) (name : bytes) : Prop :=
    exists ids r, listing d (H name) ids /\ respond H d k rlimit name = Ok r /\
      match ids with
      | [] => verify_proof_by_domain H r = Ok (PoA, true)
      | _ => entry r = Some (mk_entry name (H name) (H (concat ids))) /\ verify_proof_by_domain H r = Ok (PoP, true)
      end.
  Theorem C69_partial m d k rlimit name :
    (forall x, length (H x) = HashLength) -> 0 < size -> collision_free H G -> (forall x, G x -> H x <> zero_hash) ->
    server H limit max_depth size (fun _ => batch_ok H) G m d k -> ~ In (H name) (map fst (d_dirty d)) -> answered d k rlimit name.
  Proof. intros H1 H2 H3 H4. exact (server_answers H H1 limit max_depth size H2 G H3 H4 m d k rlimit name). Qed.
  (** The server as it runs: batches are chains of certificates. [batch_ok] follows if different certificates have different hashes and no
      certificate is both a leaf and in a chain. *)
  Theorem C69_chains_partial (not_after : cert -> Z) (U leaf : cert -> Prop) m d k rlimit name :
    (forall x, length (H x) = HashLength) -> 0 < size -> collision_free H G -> (forall x, G x -> H x <> zero_hash) ->
    (forall c c', U c -> U c' -> H (raw c) = H (raw c') -> c = c') ->
    server H limit max_depth size (chain_batches H not_after U leaf) G m d k -> ~ In (H name) (map fst (d_dirty d)) -> answered d k rlimit name.
  Proof.
    intros H1 H2 H3 H4 H5 Hs. destruct (chain_server H H1 limit max_depth size H2 G not_after U leaf H5 m d k Hs) as [Hs' _].
    exact (server_answers H H1 limit max_depth size H2 G H3 H4 m d k rlimit name Hs').
  Qed.
  (** At the end of a round every name is answered so. *)
  Theorem C69_round_partial m d k es max m' rlimit name :
    (forall x, length (H x) = HashLength) -> 0 < size -> collision_free H G -> (forall x, G x -> H x <> zero_hash) ->
    server H limit max_depth size (fun _ => batch_ok H) G m d k -> returned (exec H max_depth size (start d) es) = true -> 0 < max ->
    let d1 := fst (exec H max_depth size (start d) es) in
    legal_update H G m d1 m' ->
    exists k', update_smt H limit max d1 k = (Ok tt, k') /\ answered (cleanup d1) k' rlimit name.
  Proof.
    intros H1 H2 H3 H4 Hs Hr Hm d1 Hl. destruct (server_inv H H1 limit max_depth size H2 G m d k Hs) as (_ & Hreach & _).
    destruct (reach_update_smt H H1 limit G H3 H4 max d1 k m m' Hm Hreach Hl) as (k' & E & _). exists k'. split; [exact E|].
    eapply C69_partial; [exact H1 | exact H2 | exact H3 | exact H4 | | intros []].
    exact (server_update H limit max_depth size _ G m d k es max m' k' Hs Hr Hl Hm E).
  Qed.
End C69.

(** ** A round with two certificates *)
Definition rawA : bytes := [x41].
Definition rawB : bytes := [x42].
Definition leafA : cert := mk_cert rawA [nameA].
Definition leafB : cert := mk_cert rawB [nameB].
Definition roundH (x : bytes) : bytes := if beqb x rawA then certA else if beqb x rawB then certB else smtH x.
Lemma roundH_table x : exG x -> roundH x = smtH x.
Proof.
  intros Hx. assert (Hl : 64 <= length x).
  { assert (Hall : forallb (fun s => 64 <=? length s) ex_table = true) by (vm_compute; reflexivity).
    rewrite forallb_forall in Hall. apply Nat.leb_le, Hall, Hx. }
  assert (Hne : forall y, length y < 64 -> beqb x y = false) by (intros y Hy; apply beqb_neq; intros ->; lia).
  unfold roundH. rewrite !Hne by (cbn; lia). reflexivity.
Qed.
Lemma roundH_length x : length (roundH x) = HashLength.
Proof. unfold roundH. repeat (destruct (beqb x _); [reflexivity|]). apply smtH_length. Qed.
Lemma roundH_cf : collision_free roundH exG.
Proof. destruct smtH_cf as [Ha Hb]. split; intros x y Hx Hy; rewrite (roundH_table x Hx), (roundH_table y Hy); auto. Qed.
Lemma roundH_nz x : exG x -> roundH x <> zero_hash.
Proof. intros Hx. rewrite roundH_table by exact Hx. apply smtH_nz. exact Hx. Qed.
Lemma round_covers_sub m : is_map m -> incl m ex_m1 -> TrieSpec.covers roundH exG m.
Proof.
  intros [Hn _] Hi. apply NoDup_keys_NoDup in Hn.
  assert (Hc : forall l, incl l ex_m1 -> forallb (fun s => existsb (beqb s) ex_table) (strings_of roundH TrieHeight (build TrieHeight l)) = true ->
                         TrieSpec.covers roundH exG l).
  { intros l Hl Hb. split; [apply ex_in_b; exact Hb|]. intros k v h Hk. apply ex_leaf_in.
    apply Hl in Hk. destruct Hk as [<-|[<-|[]]]; cbn; auto. }
  destruct (incl_two _ _ m Hn Hi) as [Hp|[Hp|[Hp|Hp]]]; (eapply covers_perm; [apply Permutation_sym; exact Hp|]; apply Hc).
  - intros x [].
  - reflexivity.
  - intros x [<-|[]]. cbn. auto.
  - vm_compute. reflexivity.
  - intros x [<-|[]]. cbn. auto.
  - vm_compute. reflexivity.
  - intros x Hx. exact Hx.
  - vm_compute. reflexivity.
Qed.
(** Each partition worker runs until it stops. *)
Definition all_work : list event := flat_map (fun p => repeat (Work p) 8) (seq 0 partitions).
Definition ex_chains : list (cert * list cert) := [(leafA, []); (leafB, [])].
Definition ex_ingested : db := match ingest roundH true (chain_batch roundH (fun _ => 0%Z) ex_chains) empty_db with Ok d => d | _ => empty_db end.
Definition ex_coalesced : db := fst (exec roundH 10 3 (start ex_ingested) all_work).
Definition ex_U (c : cert) : Prop := c = leafA \/ c = leafB.
Example C69_legal : legal_update roundH exG [] ex_coalesced ex_m1.
Proof.
  assert (Hb : dirty_batch roundH ex_coalesced = [(kA, v1); (kB, v2)]) by (vm_compute; reflexivity).
  unfold legal_update. rewrite Hb. cbv zeta. split.
  { cbn. constructor; [cbn; intros [Hq|[]]; discriminate|]. constructor; [intros []|constructor]. }
  split; [repeat constructor|].
  split. { intros k v [Hq|[Hq|[]]]; injection Hq as <- <-; split; discriminate. }
  split. { intros (n & x & k1 & k2 & _ & [] & _). }
  split. { intros x y Hx Hy. apply (sep_bit kB kA ltac:(discriminate)); cbn in *; tauto. }
  split.
  { intros c Hc Hnc mc Hmc Ho. apply round_covers_sub; [exact Hmc|]. intros [k v] Hi.
    apply (In_lookup mc k v (proj1 Hmc)) in Hi. rewrite (Ho k) in Hi. unfold batch_effect in Hi. cbn [lookup] in Hi.
    destruct (lookup c k) as [w|] eqn:Hw; [|discriminate]. apply lookup_In in Hw. apply Hc in Hw.
    destruct (beqb w DefaultLeaf); [discriminate|]. injection Hi as <-. destruct Hw as [Hw|[Hw|[]]]; rewrite <- Hw; cbn; auto. }
  split; [exact ex_map1|]. split; [|discriminate].
  intros k. unfold batch_effect. cbn [lookup ex_m1].
  destruct (beqb_spec kA k) as [Ha|Ha]; destruct (beqb_spec kB k) as [Hb'|Hb']; reflexivity.
Qed.
Lemma update_step H limit max_depth size allowed G m d k es max m' d1 : d1 = fst (exec H max_depth size (start d) es) ->
  server H limit max_depth size allowed G m d k -> returned (exec H max_depth size (start d) es) = true -> legal_update H G m d1 m' -> 0 < max ->
  fst (update_smt H limit max d1 k) = Ok tt -> server H limit max_depth size allowed G m' (cleanup d1) (snd (update_smt H limit max d1 k)).
Proof.
  intros -> Hs Hr Hl Hm Ho. eapply server_update; [exact Hs | exact Hr | exact Hl | exact Hm |]. rewrite <- Ho. apply surjective_pairing.
Qed.
Example C69_example : let k := snd (update_smt roundH 32 5 ex_coalesced no_tree) in
  server roundH 32 10 3 (chain_batches roundH (fun _ => 0%Z) ex_U ex_U) exG ex_m1 (cleanup ex_coalesced) k /\
  (exists r, respond roundH (cleanup ex_coalesced) k 32 nameA = Ok r /\ entry r = Some (mk_entry nameA kA v1) /\ verify_proof_by_domain roundH r = Ok (PoP, true)) /\
  (forall c c', ex_U c -> ex_U c' -> roundH (raw c) = roundH (raw c') -> c = c').
Proof.
  cbv zeta. split; [|split].
  - assert (Hi : server roundH 32 10 3 (chain_batches roundH (fun _ => 0%Z) ex_U ex_U) exG [] ex_ingested no_tree).
    { eapply (server_ingest _ _ _ _ _ _ _ empty_db no_tree true (chain_batch roundH (fun _ => 0%Z) ex_chains)); [apply server_start | | vm_compute; reflexivity].
      split; [reflexivity|]. exists ex_chains. split; [|reflexivity]. intros c chain [Hq|[Hq|[]]]; injection Hq as <- <-; (split; [unfold ex_U; auto|]); (split; [unfold ex_U; auto | intros p []]). }
    assert (He : ex_coalesced = fst (exec roundH 10 3 (start ex_ingested) all_work)) by (unfold ex_coalesced; reflexivity).
    assert (Hr : returned (exec roundH 10 3 (start ex_ingested) all_work) = true) by (vm_compute; reflexivity).
    assert (Ho : fst (update_smt roundH 32 5 ex_coalesced no_tree) = Ok tt) by (vm_compute; reflexivity).
    exact (update_step roundH 32 10 3 _ exG [] ex_ingested no_tree all_work 5 ex_m1 ex_coalesced He Hi Hr C69_legal (Nat.lt_0_succ 4) Ho).
  - eexists. split; [vm_compute; reflexivity|]. split; vm_compute; reflexivity.
  - intros c c' [E1|E1] [E2|E2]; subst; try reflexivity; intros Hq; vm_compute in Hq; discriminate.
Qed.

(** ** What the conditions exclude, with the real SHA-256 *)
(** A whole round on the tables (without the tree). *)
Definition tables_round (cut : Z) (l : list (cert * list cert)) (exp : cert -> Z) (d : db) : res db :=
  match prune_expired 10 cut d with
  | Ok d1 => match ingest sha256 true (chain_batch sha256 exp l) d1 with
             | Ok d2 => let s := exec sha256 10 100 (start d2) all_work in if returned s then Ok (cleanup (fst s)) else Err
             | r => r
             end
  | r => r
  end.
Definition exp_of (c : cert) : Z := if beqb (raw c) [x4c] then 100%Z else 1000%Z.
Definition leafL : cert := mk_cert [x4c] [[x6c]].
Definition leafX : cert := mk_cert [x58] [[x78]].
Definition bind_res {A B} (r : res A) (f : A -> res B) : res B := match r with Ok x => f x | Err => Err | Panic => Panic end.
(** A certificate seen first in a chain is stored without its names; when it is logged itself it is "already there" and its names are
    never associated with it: no round makes it appear under its own name. *)
Theorem C69_leaf_after_chain_refuted : exists l1 l2 c n d, In (c, []) l2 /\ In n (cert_names c) /\
  bind_res (tables_round 0 l1 exp_of empty_db) (tables_round 0 l2 exp_of) = Ok d /\ d_dirty d = [] /\
  In (sha256 (raw c)) (map cr_id (d_certs d)) /\ entry_of d (sha256 n) = (sha256 n, []).
Proof.
  exists [(leafX, [leafL])], [(leafL, [])], leafL, [x6c]. eexists. split; [left; reflexivity|]. split; [left; reflexivity|].
  split; [vm_compute; reflexivity|]. split; [reflexivity|]. split; [vm_compute; right; left; reflexivity | vm_compute; reflexivity].
Qed.
(** A pruned certificate comes back in a chain: its old association counts again, but its domain is not marked dirty and its payload stays
    without the certificate. *)
Definition has_id (d : db) (x i : bytes) : bool :=
  existsb (fun r => beqb (cr_id r) i) (d_certs d) && existsb (fun r => beqb (fst r) x && beqb (snd r) i) (d_dc d).
Lemma has_id_lists d x i : has_id d x i = true -> DbCoalesce.covers (d_certs d) (d_dc d) x i.
Proof.
  unfold has_id. rewrite andb_true_iff, !existsb_exists. intros [(r & Hr & E) ([y j] & Hj & E2)]. apply beqb_eq in E. cbn [fst snd] in E2.
  apply andb_true_iff in E2. destruct E2 as [E2 E3]. apply beqb_eq in E2, E3. subst. apply covers_own; assumption.
Qed.
Theorem C69_returning_refuted : exists l1 l2 x i d,
  bind_res (bind_res (tables_round 0 l1 exp_of empty_db) (tables_round 500 [] exp_of)) (tables_round 500 l2 exp_of) = Ok d /\ d_dirty d = [] /\
  DbCoalesce.covers (d_certs d) (d_dc d) x i /\ entry_of d x = (x, []).
Proof.
  exists [(leafL, [])], [(leafX, [leafL])], (sha256 [x6c]), (sha256 [x4c]). eexists.
  split; [vm_compute; reflexivity|]. split; [reflexivity|]. split; [apply has_id_lists; vm_compute; reflexivity | vm_compute; reflexivity].
Qed.

Print Assumptions C19_payload.
Print Assumptions C19_no_payload.
Print Assumptions C69_partial.
Print Assumptions C69_chains_partial.
Print Assumptions C69_round_partial.
Print Assumptions C69_leaf_after_chain_refuted.
Print Assumptions C69_returning_refuted.
