(** Property theorems C80-C82: the two interfaces of the map server over HTTP, from the text of the request to what a client reads, for the
    model in ApiText.v and ApiModel.v. *)
From Coq Require Import Permutation Sorted.
From Coq Require Import Strings.String.
From Verif Require JsonText JsonTextProofs JsonModel.
From Verif Require Import Base BaseLemmas UtilModel UtilIds ApiText ApiTextProofs DbModel DbTables DbIngest DbPrune DbCoalesce BundleModel BundleProofs.
From Verif Require Import Sha256 TrieModel TrieSpec TrieMaps TrieExample TrieRefute TrieTop ClientModel DomainModel DomainSpec DomainTop SmtModel SmtProofs PropertiesTrie PropertiesSmt RoundModel RoundProofs PropertiesRound PropertiesDomain ApiModel ApiProofs.
Local Open Scope list_scope.

(** * C80. A request for payloads whose parameter spells a list of ids ([spells_ids]: 64 hexadecimal digits each, in either case) is answered
    with one element per id, in the same order: a payload that is stored under the id, or null exactly if there is none. Every other
    parameter is refused. [answers_query]: the data base yields the rows, in any order, if it accepts the statement. *)
Theorem C80_payloads_partial w most d rows text ids : answers_query w most d rows -> spells_ids text ids -> 1 <= length ids <= most ->
  exists body l, api_payloads rows text = Body body /\ read_payloads body = Some l /\
    Forall2 (fun id x => match x with Some p => stored w d id p | None => forall p, ~ stored w d id p end) ids l.
Proof. exact (payloads_answered w most d rows text ids). Qed.
Theorem C80_refused w most d rows text : answers_query w most d rows ->
  (forall ids, spells_ids text ids -> ~ 1 <= length ids <= most) -> api_payloads rows text = BadRequest.
Proof. exact (payloads_refused w most d rows text). Qed.
(** A text spells at most one list; the texts that clients make spell it. *)
Theorem C80_spelling text ids ids' : spells_ids text ids -> spells_ids text ids' -> ids = ids'.
Proof. intros A B. apply spelled in A, B. destruct A as [_ A], B as [_ B]. congruence. Qed.
Theorem C80_encoded ids : Forall (fun i => length i = 32) ids -> spells_ids (concat (map hex_encode ids)) ids.
Proof. exact (spell_all ids). Qed.
Definition ex_id1 : bytes := repeat x1f 32.
Definition ex_id2 : bytes := repeat xa0 32.
Definition ex_tables : db := set_certs [mk_cr ex_id1 [] 0 [x41; x42]] empty_db.
Definition ex_rows (w : which) (most : nat) (d : db) (ids : list bytes) : option (list (bytes * bytes)) :=
  if accepted_query most ids then Some (rev (selected w d ids)) else None.
Lemma ex_rows_answer w most d : answers_query w most d (ex_rows w most d).
Proof.
  intros ids. unfold ex_rows. destruct (accepted_query most ids); [|reflexivity]. eexists. split; [reflexivity|]. apply Permutation_sym, Permutation_rev.
Qed.
(** Upper and lower case; the second id is not stored. *)
Example C80_example :
  spells_ids (concat (repeat [x31; x46] 32) ++ concat (repeat [x61; x30] 32)) [ex_id1; ex_id2] /\
  api_payloads (ex_rows Certificates 10 ex_tables) (concat (repeat [x31; x46] 32) ++ concat (repeat [x61; x30] 32)) =
    Body (list_byte_of_string "[""QUI="",null]" ++ [x0a]) /\
  api_payloads (ex_rows Certificates 10 ex_tables) [] = BadRequest.
Proof. split; [|split; vm_compute; reflexivity]. apply spelled. split; vm_compute; reflexivity. Qed.
(** An error while the rows are read is not asked for (rows.Err): the payloads not read are answered as missing. *)
Theorem C80_broken_connection_refuted : exists w d ids rs text body l,
  incl rs (selected w d ids) /\ spells_ids text ids /\ api_payloads (fun _ => Some rs) text = Body body /\ read_payloads body = Some l /\
  exists id p, In id ids /\ stored w d id p /\ l = [None].
Proof.
  exists Certificates, ex_tables, [ex_id1], [], (hex_encode ex_id1). eexists. eexists. split; [intros x []|].
  split; [apply spelled; split; vm_compute; reflexivity|]. split; [vm_compute; reflexivity|]. split; [vm_compute; reflexivity|].
  exists ex_id1, [x41; x42]. split; [left; reflexivity|]. split; [|reflexivity]. exists (mk_cr ex_id1 [] 0 [x41; x42]). split; [left; reflexivity|]. split; reflexivity.
Qed.

(** * C81. End to end: in every state of the server, the answer to a request for a domain none of whose parts is marked dirty is a text
    that reads as one answer per part; each is accepted, and lists exactly the certificates and policies that the tables hold for the part;
    a request for the payloads of these ids, in any order, yields payloads that hash to them. Partial like C69; [hashed_batch]: the ids of
    a batch are the hashes of its certificates. *)
Section C81.
  Variable H : bytes -> bytes.
  Variables limit max_depth size : nat.
  Variable G : bytes -> Prop.
  Definition lists_of (d : db) (name : bytes) (a : answer) (cs ps : list bytes) : Prop :=
    NoDup cs /\ (forall i, In i cs <-> DbCoalesce.covers (d_certs d) (d_dc d) (H name) i) /\
    NoDup ps /\ (forall i, In i ps <-> DbCoalesce.covers (d_pols d) (d_dp d) (H name) i) /\
    exists e, a_entry a = Some e /\ e_name e = name /\ e_id e = H name /\ ids_in (e_certs e) = cs /\ ids_in (e_pols e) = ps /\
    match cs ++ ps with
    | [] => verify_proof_by_domain H (client_view a) = Ok (PoA, true)
    | l => verify_proof_by_domain H (client_view a) = Ok (PoP, true) /\
           exists ids, Permutation ids l /\ StronglySorted (fun a b => bcmp a b <> Gt) ids /\ e_value e = H (concat ids)
    end.
  (** Asking for the payloads of [ids] *)
  Definition fetches (d : db) (w : which) (ids : list bytes) : Prop :=
    forall most rows, answers_query w most d rows -> 1 <= length ids <= most ->
    exists body l, api_payloads rows (concat (map hex_encode ids)) = Body body /\ read_payloads body = Some (map Some l) /\ map H l = ids.
  Definition served (d : db) (k : disk) (psl : bytes -> bytes * bool) (rlimit : nat) (sig domain : bytes) (parts : list bytes) : Prop :=
    exists body l, api_proof H psl d k rlimit sig domain = Body body /\ read_chain body = Some l /\
      Forall2 (fun name a => exists cs ps, lists_of d name a cs ps /\ forall ids,
        (Permutation ids cs -> fetches d Certificates ids) /\ (Permutation ids ps -> fetches d Policies ids) /\
        (Permutation ids (cs ++ ps) -> fetches d CertificatesAndPolicies ids)) parts l.
  Lemma served_all (m : kvmap) d k psl rlimit sig domain parts :
    (forall x, length (H x) = HashLength) -> 0 < size -> collision_free H G -> (forall x, G x -> H x <> zero_hash) -> hashed H d ->
    server H limit max_depth size (fun _ => batch_ok H) G m d k -> whole_labels psl -> parse_domain_name psl domain = Some parts ->
    (forall p, In p parts -> ~ In (H p) (map fst (d_dirty d))) -> served d k psl rlimit sig domain parts.
  Proof.
    intros H1 H2 H3 H4 Hh Hs Hw Hp Hn. destruct (proof_text H H1 limit max_depth size H2 G H3 H4 m d k rlimit sig psl domain parts Hs Hw Hp Hn) as (body & l & E1 & E2 & F).
    exists body, l. split; [exact E1|]. split; [exact E2|]. clear E1 E2 Hp Hn. induction F as [|n a ns l Ha F IH]; constructor; [|exact IH].
    pose proof Ha as (e & He & X1 & X2 & X3 & X4 & X5 & X6 & X7). exists (ids_in (e_certs e)), (ids_in (e_pols e)).
    split; [split; [exact X3|]; split; [exact X4|]; split; [exact X5|]; split; [exact X6|]; exists e; repeat (split; [first [assumption|reflexivity]|]); exact X7|].
    intros ids. split; [|split]; intros Pm most rows Hq Hb.
    - destruct (right_fetched H H1 d n a e Certificates most rows ids Hh Ha He Hq Hb ltac:(auto)) as (b & q & Q1 & Q2 & Q3 & _). exists b, q. auto.
    - destruct (right_fetched H H1 d n a e Policies most rows ids Hh Ha He Hq Hb ltac:(auto)) as (b & q & Q1 & Q2 & Q3 & _). exists b, q. auto.
    - destruct (right_fetched H H1 d n a e CertificatesAndPolicies most rows ids Hh Ha He Hq Hb ltac:(auto)) as (b & q & Q1 & Q2 & Q3 & _). exists b, q. auto.
  Qed.
  Theorem C81_served_partial m d k psl rlimit sig domain parts :
    (forall x, length (H x) = HashLength) -> 0 < size -> collision_free H G -> (forall x, G x -> H x <> zero_hash) ->
    server H limit max_depth size (fun _ => hashed_batch H) G m d k -> whole_labels psl -> parse_domain_name psl domain = Some parts ->
    (forall p, In p parts -> ~ In (H p) (map fst (d_dirty d))) -> served d k psl rlimit sig domain parts.
  Proof.
    intros H1 H2 H3 H4 Hs. apply (served_all m); try assumption.
    - exact (server_hashed H H1 limit max_depth size H2 G m d k Hs).
    - eapply server_mono; [|exact Hs]. intros kp d1 b [Hb _]. exact Hb.
  Qed.
  (** The server as it runs: batches are chains of certificates, which carry their hashes. *)
  Theorem C81_chains_partial (not_after : cert -> Z) (U leaf : cert -> Prop) m d k psl rlimit sig domain parts :
    (forall x, length (H x) = HashLength) -> 0 < size -> collision_free H G -> (forall x, G x -> H x <> zero_hash) ->
    (forall c c', U c -> U c' -> H (raw c) = H (raw c') -> c = c') ->
    server H limit max_depth size (chain_batches H not_after U leaf) G m d k -> whole_labels psl -> parse_domain_name psl domain = Some parts ->
    (forall p, In p parts -> ~ In (H p) (map fst (d_dirty d))) -> served d k psl rlimit sig domain parts.
  Proof.
    intros H1 H2 H3 H4 H5 Hs. apply (served_all m); try assumption.
    - exact (chain_hashed H H1 limit max_depth size H2 G not_after U leaf m d k H5 Hs).
    - apply (chain_server H H1 limit max_depth size H2 G not_after U leaf H5 m d k Hs).
  Qed.
  (** A domain that is not a valid name is refused. *)
  Theorem C81_invalid d k psl rlimit sig domain : parse_domain_name psl domain = None -> api_proof H psl d k rlimit sig domain = BadRequest.
  Proof. intros E. unfold api_proof, get_proof. rewrite E. reflexivity. Qed.
End C81.

(** ** Two certificates for a.com and b.com, and a request for b.a.com *)
Definition com_label : bytes := [x63; x6f; x6d].
Definition siteA : bytes := join [[x61]; com_label].
Definition siteB : bytes := join [[x62]; com_label].
Definition apiH (x : bytes) : bytes := if beqb x siteA then kA else if beqb x siteB then kB else roundH x.
Lemma apiH_table x : exG x -> apiH x = roundH x.
Proof.
  intros Hx. assert (Hl : 64 <= length x).
  { assert (Hall : forallb (fun s => 64 <=? length s) ex_table = true) by (vm_compute; reflexivity).
    rewrite forallb_forall in Hall. apply Nat.leb_le, Hall, Hx. }
  assert (Hne : forall y, length y < 64 -> beqb x y = false) by (intros y Hy; apply beqb_neq; intros ->; lia).
  unfold apiH. rewrite !Hne by (cbn; lia). reflexivity.
Qed.
Lemma apiH_length x : length (apiH x) = HashLength.
Proof. unfold apiH. repeat (destruct (beqb x _); [reflexivity|]). apply roundH_length. Qed.
Lemma apiH_cf : collision_free apiH exG.
Proof. destruct roundH_cf as [Ha Hb]. split; intros x y Hx Hy; rewrite (apiH_table x Hx), (apiH_table y Hy); auto. Qed.
Lemma apiH_nz x : exG x -> apiH x <> zero_hash.
Proof. intros Hx. rewrite apiH_table by exact Hx. apply roundH_nz. exact Hx. Qed.
Lemma api_covers_sub m : is_map m -> incl m ex_m1 -> TrieSpec.covers apiH exG m.
Proof.
  intros [Hn _] Hi. apply NoDup_keys_NoDup in Hn.
  assert (Hc : forall l, incl l ex_m1 -> forallb (fun s => existsb (beqb s) ex_table) (strings_of apiH TrieHeight (build TrieHeight l)) = true ->
                         TrieSpec.covers apiH exG l).
  { intros l Hl Hb. split; [apply ex_in_b; exact Hb|]. intros k v h Hk. apply ex_leaf_in.
    apply Hl in Hk. destruct Hk as [<-|[<-|[]]]; cbn; auto. }
  destruct (incl_two _ _ m Hn Hi) as [Hp|[Hp|[Hp|Hp]]]; (eapply covers_perm; [apply Permutation_sym; exact Hp|]; apply Hc).
  - intros x [].
  - reflexivity.
  - intros x [<-|[]]. cbn. auto.
  - vm_compute. reflexivity.
  - intros x [<-|[]]. cbn. auto.
  - vm_compute. reflexivity.
  - intros x Hx. exact Hx.
  - vm_compute. reflexivity.
Qed.
Definition api_leafA : cert := mk_cert rawA [siteA].
Definition api_leafB : cert := mk_cert rawB [siteB].
Definition api_chains : list (cert * list cert) := [(api_leafA, []); (api_leafB, [])].
Definition api_U (c : cert) : Prop := c = api_leafA \/ c = api_leafB.
Definition api_ingested : db := match ingest apiH true (chain_batch apiH (fun _ => 0%Z) api_chains) empty_db with Ok d => d | _ => empty_db end.
Definition api_coalesced : db := fst (exec apiH 10 3 (start api_ingested) all_work).
Definition api_disk : disk := snd (update_smt apiH 32 5 api_coalesced no_tree).
Definition api_psl : bytes -> bytes * bool := rules_psl [([com_label], Plain, true)].
Definition asked : bytes := join [[x62]; [x61]; com_label].
Lemma api_legal : legal_update apiH exG [] api_coalesced ex_m1.
Proof.
  assert (Hb : dirty_batch apiH api_coalesced = [(kA, v1); (kB, v2)]) by (vm_compute; reflexivity).
  unfold legal_update. rewrite Hb. cbv zeta. split.
  { cbn. constructor; [cbn; intros [Hq|[]]; discriminate|]. constructor; [intros []|constructor]. }
  split; [repeat constructor|].
  split. { intros k v [Hq|[Hq|[]]]; injection Hq as <- <-; split; discriminate. }
  split. { intros (n & x & k1 & k2 & _ & [] & _). }
  split. { intros x y Hx Hy. apply (sep_bit kB kA ltac:(discriminate)); cbn in *; tauto. }
  split.
  { intros c Hc Hnc mc Hmc Ho. apply api_covers_sub; [exact Hmc|]. intros [k v] Hi.
    apply (In_lookup mc k v (proj1 Hmc)) in Hi. rewrite (Ho k) in Hi. unfold batch_effect in Hi. cbn [TrieSpec.lookup] in Hi.
    destruct (TrieSpec.lookup c k) as [w|] eqn:Hw; [|discriminate]. apply lookup_In in Hw. apply Hc in Hw.
    destruct (beqb w DefaultLeaf); [discriminate|]. injection Hi as <-. destruct Hw as [Hw|[Hw|[]]]; rewrite <- Hw; cbn; auto. }
  split; [exact ex_map1|]. split; [|discriminate].
  intros k. unfold batch_effect. cbn [TrieSpec.lookup ex_m1].
  destruct (beqb_spec kA k) as [Ha|Ha]; destruct (beqb_spec kB k) as [Hb'|Hb']; reflexivity.
Qed.
Lemma api_server : server apiH 32 10 3 (chain_batches apiH (fun _ => 0%Z) api_U api_U) exG ex_m1 (cleanup api_coalesced) api_disk.
Proof.
  assert (Hi : server apiH 32 10 3 (chain_batches apiH (fun _ => 0%Z) api_U api_U) exG [] api_ingested no_tree).
  { eapply (server_ingest _ _ _ _ _ _ _ empty_db no_tree true (chain_batch apiH (fun _ => 0%Z) api_chains)); [apply server_start | | vm_compute; reflexivity].
    split; [reflexivity|]. exists api_chains. split; [|reflexivity]. intros c chain [Hq|[Hq|[]]]; injection Hq as <- <-; (split; [unfold api_U; auto|]); (split; [unfold api_U; auto | intros p []]). }
  assert (He : api_coalesced = fst (exec apiH 10 3 (start api_ingested) all_work)) by (unfold api_coalesced; reflexivity).
  assert (Hr : returned (exec apiH 10 3 (start api_ingested) all_work) = true) by (vm_compute; reflexivity).
  assert (Ho : fst (update_smt apiH 32 5 api_coalesced no_tree) = Ok tt) by (vm_compute; reflexivity).
  exact (update_step apiH 32 10 3 _ exG [] api_ingested no_tree all_work 5 ex_m1 api_coalesced He Hi Hr api_legal (Nat.lt_0_succ 4) Ho).
Qed.
Example C81_example : server apiH 32 10 3 (chain_batches apiH (fun _ => 0%Z) api_U api_U) exG ex_m1 (cleanup api_coalesced) api_disk /\
  whole_labels api_psl /\ parse_domain_name api_psl asked = Some [siteA; asked] /\
  (forall p, ~ In (apiH p) (map fst (d_dirty (cleanup api_coalesced)))) /\
  match api_proof apiH api_psl (cleanup api_coalesced) api_disk 32 [x07] asked with
  | Body body => option_map (map (fun a => (option_map e_certs (a_entry a), verify_proof_by_domain apiH (client_view a)))) (read_chain body)
  | _ => None
  end = Some [(Some (Some certA), Ok (PoP, true)); (Some None, Ok (PoA, true))] /\
  match api_payloads (ex_rows Certificates 10 (cleanup api_coalesced)) (concat (map hex_encode [certA])) with Body body => read_payloads body | _ => None end = Some [Some rawA].
Proof.
  split; [exact api_server|]. split; [apply C15_rules|]. split; [vm_compute; reflexivity|]. split; [intros p []|]. split.
  - vm_compute. reflexivity.
  - vm_compute. reflexivity.
Qed.
(** Expired certificates are deleted at once, the list of the domain and the tree change later (the domain is marked dirty in between):
    an accepted answer lists a certificate whose payload is answered as null. *)
Definition api_pruned : db := match prune_stmts 10 1 (cleanup api_coalesced) with Ok s => run s (cleanup api_coalesced) | _ => empty_db end.
Theorem C81_pruned_refuted : exists H limit max_depth size G m d k domain parts,
  server H limit max_depth size (chain_batches H (fun _ => 0%Z) api_U api_U) G m d k /\ whole_labels api_psl /\ parse_domain_name api_psl domain = Some parts /\
  match api_proof H api_psl d k 32 [x07] domain with
  | Body body => option_map (map (fun a => (option_map (fun e => ids_in (e_certs e)) (a_entry a), verify_proof_by_domain H (client_view a)))) (read_chain body)
  | _ => None
  end = Some [(Some [certA], Ok (PoP, true))] /\
  match api_payloads (ex_rows Certificates 10 d) (concat (map hex_encode [certA])) with Body body => read_payloads body | _ => None end = Some [None].
Proof.
  exists apiH, 32, 10, 3, exG, ex_m1, api_pruned, api_disk, siteA, [siteA]. split; [|split; [apply C15_rules|]; split; [vm_compute; reflexivity|]; split; vm_compute; reflexivity].
  assert (E : exists s, prune_stmts 10 1 (cleanup api_coalesced) = Ok s /\ api_pruned = run (firstn 2 s) (cleanup api_coalesced)).
  { unfold api_pruned, prune_stmts. assert (D : descendants 10 (d_certs (cleanup api_coalesced)) (map cr_id (filter (fun c => (cr_exp c <? 1)%Z) (d_certs (cleanup api_coalesced)))) = Some [certA; certB]) by (vm_compute; reflexivity).
    rewrite D. eexists. split; reflexivity. }
  destruct E as (s & E1 & ->). exact (server_prune apiH 32 10 3 _ exG ex_m1 _ api_disk 1 s 2 api_server E1).
Qed.
(** The client compares neither list with the value that it verifies: an answer without the certificate is accepted too. *)
Definition api_honest : option answer :=
  match api_proof apiH api_psl (cleanup api_coalesced) api_disk 32 [x07] siteA with
  | Body body => match read_chain body with Some (a :: _) => Some a | _ => None end
  | _ => None
  end.
Definition without_lists (a : answer) : answer :=
  mk_answer (option_map (fun e => mk_ef (e_name e) (e_id e) (e_value e) (e_certs_id e) None (e_pols_id e) None) (a_entry a)) (a_poi a) (a_sig a).
Theorem C81_other_lists_refuted : exists H limit max_depth size G m d k domain a e,
  server H limit max_depth size (chain_batches H (fun _ => 0%Z) api_U api_U) G m d k /\ d_dirty d = [] /\
  (exists a', option_map without_lists a' = Some a /\
     a' = match api_proof H api_psl d k 32 [x07] domain with Body body => match read_chain body with Some [x] => Some x | _ => None end | _ => None end) /\
  a_entry a = Some e /\ e_id e = H (e_name e) /\ p_root (a_poi a) = Some (root_of H m) /\
  verify_proof_by_domain H (client_view a) = Ok (PoP, true) /\
  ids_in (e_certs e) = [] /\ ids_in (e_pols e) = [] /\ exists i, DbCoalesce.covers (d_certs d) (d_dc d) (H (e_name e)) i.
Proof.
  assert (E : exists a e, api_honest = Some a /\ a_entry (without_lists a) = Some e /\ e_id e = apiH (e_name e) /\ p_root (a_poi (without_lists a)) = Some (root_of apiH ex_m1) /\
              verify_proof_by_domain apiH (client_view (without_lists a)) = Ok (PoP, true) /\ ids_in (e_certs e) = [] /\ ids_in (e_pols e) = [] /\ apiH (e_name e) = kA).
  { destruct api_honest as [a|] eqn:E; [|exfalso; vm_compute in E; discriminate E]. exists a. vm_compute in E. injection E as <-.
    eexists. split; [reflexivity|]. split; [reflexivity|]. split; [vm_compute; reflexivity|]. split; [vm_compute; reflexivity|]. split; [vm_compute; reflexivity|].
    split; [reflexivity|]. split; [reflexivity|]. vm_compute; reflexivity. }
  destruct E as (a & e & E1 & E2 & E3 & E4 & E5 & E6 & E7 & E8).
  exists apiH, 32, 10, 3, exG, ex_m1, (cleanup api_coalesced), api_disk, siteA, (without_lists a), e. split; [exact api_server|]. split; [reflexivity|].
  split. { exists (Some a). split; [reflexivity|]. rewrite <- E1. vm_compute. reflexivity. }
  repeat (split; [assumption|]). exists certA. rewrite E8.
  apply (DbCoalesce.covers_own _ _ _ (mk_cr certA [] 0 rawA)); vm_compute; tauto.
Qed.
(** If the client also compares the id with the name and the value with the two lists together, the lists together are those of the
    tables. (Which id is in which of the two lists is not covered by the value.) The conditions on [G]: no collision among the strings
    that the server and the client hash. *)
Theorem C81_lists_partial : forall H limit max_depth size G, (forall x, length (H x) = HashLength) -> 0 < size -> collision_free H G -> (forall x, G x -> H x <> zero_hash) ->
  forall m d k a e ids, server H limit max_depth size (fun _ => batch_ok H) G m d k -> ~ In (H (e_name e)) (map fst (d_dirty d)) ->
  a_entry a = Some e -> e_id e = H (e_name e) -> Permutation ids (ids_in (e_certs e) ++ ids_in (e_pols e)) -> e_value e = H (concat ids) ->
  let p := the_poi (client_view a) in
  proof_root p = Some (root_of H m) -> legal_path (proof_path p) -> G (e_id e ++ e_value e ++ [depth_byte (length (proof_path p))]) ->
  (forall s, In s (path_strings H (proof_path p) 0 (length (proof_path p)) (e_id e) (H (e_id e ++ e_value e ++ [depth_byte (length (proof_path p))]))) -> G s) ->
  G (concat ids) -> G (snd (BundleModel.entry_of d (H (e_name e)))) -> verify_proof_by_domain H (client_view a) = Ok (PoP, true) ->
  forall i, In i (ids_in (e_certs e) ++ ids_in (e_pols e)) <->
    DbCoalesce.covers (d_certs d) (d_dc d) (e_id e) i \/ DbCoalesce.covers (d_pols d) (d_dp d) (e_id e) i.
Proof. intros H limit max_depth size G Hl Hs Hc Hz m d k a e ids. exact (lists_bound H Hl limit max_depth size Hs G Hc Hz m d k a e ids). Qed.

(** * C82. What a client reads out of the JSON text of a chain of proofs is the chain that the server wrote: arrays of 32 bytes as lists of
    numbers, slices in base64, nil apart from empty, any signature; the names are UTF-8 (those of [parse_domain_name] are). *)
Theorem C82_proof_text l :
  Forall (fun a => match a_entry a with
                   | Some e => JsonText.valid_utf8 (e_name e) /\ length (e_id e) = 32 /\ length (e_value e) = 32 /\ length (e_certs_id e) = 32 /\ length (e_pols_id e) = 32
                   | None => True
                   end /\ JsonModel.int64 (p_type (a_poi a)) = true) l ->
  read_chain (chain_text l) = Some l.
Proof. intros F. apply chain_round_trip. exact F. Qed.
(** So the client accepts what it reads exactly if it would accept what the server computed. *)
Theorem C82_verified H d k psl rlimit sig domain rs :
  fst (get_proof psl H (fun id => H (snd (BundleModel.entry_of d id))) rlimit (load_root k) domain (new_trie k)) = Ok rs ->
  Forall answer_ok (map (fill d sig) rs) ->
  exists body l, api_proof H psl d k rlimit sig domain = Body body /\ read_chain body = Some l /\ map client_view l = rs.
Proof.
  intros E F. unfold api_proof. rewrite E. eexists. eexists. split; [reflexivity|]. split; [apply chain_round_trip; exact F|].
  rewrite map_map. erewrite map_ext; [apply map_id|]. intros r. apply view_fill.
Qed.
Definition ex_entry : entry_fields := mk_ef siteA kA v1 zero_array (Some []) certA (Some certB).
Definition ex_answer : answer := mk_answer (Some ex_entry) (mk_pf 1 (Some [None; Some []; Some certA]) (Some kB) None (Some [])) None.
Example C82_example : Forall answer_ok [ex_answer; mk_answer None (mk_pf (-3) None None None None) (Some [])] /\
  read_chain (chain_text [ex_answer; mk_answer None (mk_pf (-3) None None None None) (Some [])]) = Some [ex_answer; mk_answer None (mk_pf (-3) None None None None) (Some [])].
Proof.
  split.
  - constructor; [|constructor; [|constructor]]; (split; [|reflexivity]); cbn [a_entry]; [|exact I].
    split; [apply JsonTextProofs.ascii_valid; repeat constructor|]. repeat split; reflexivity.
  - vm_compute. reflexivity.
Qed.
Print Assumptions C80_payloads_partial.
Print Assumptions C80_refused.
Print Assumptions C80_spelling.
Print Assumptions C80_encoded.
Print Assumptions C80_broken_connection_refuted.
Print Assumptions C81_served_partial.
Print Assumptions C81_chains_partial.
Print Assumptions C81_invalid.
Print Assumptions C81_lists_partial.
Print Assumptions C81_pruned_refuted.
Print Assumptions C81_other_lists_refuted.
Print Assumptions C82_proof_text.
Print Assumptions C82_verified.
