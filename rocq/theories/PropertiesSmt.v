(** Property theorems C16, C19, C20, C21, C64: the update of the sparse Merkle tree from the tables, for the model in
    BundleModel.v and SmtModel.v. *)
From Coq Require Import Permutation.
From Verif Require Import Base BaseLemmas UtilModel UtilIds DbModel BundleModel BundleProofs.
From Verif Require Import Sha256 TrieModel TrieSpec TrieMaps TrieExample TrieRefute ClientModel SmtModel SmtProofs.

(** * C16: every dirty domain in exactly one bundle, no bundle too large, and all but the last one full. *)
Theorem C16_bundles d max : 0 < max -> exists bs, smt_bundles d max = Some (Ok bs) /\
  Permutation (concat bs) (map fst (d_dirty d)) /\ Forall (fun b => 1 <= length b <= max) bs /\
  forall i, S i < length bs -> length (nth i bs []) = max.
Proof. exact (smt_bundles_ok d max). Qed.

(** Any caller, any number of partitions, a bundle size chosen anew for each call: the calls return each row at most once, none
    returns more than asked, a call that says it is done leaves nothing out, and a call returning less than asked says so. *)
Fixpoint calls (parts : nat) (rows : nat -> list bytes) (c : option cursor) (sizes : list nat) : list (res (list bytes * bool)) :=
  match sizes with
  | [] => []
  | n :: ns => match dirty_bundle parts rows c n with
               | Ok (b, c', done) => Ok (b, done) :: calls parts rows (Some c') ns
               | Err => Err :: calls parts rows c ns
               | Panic => [Panic]
               end
  end.
Theorem C16_calls parts rows sizes : 0 < parts -> Forall (fun n => 0 < n) sizes ->
  exists bs, calls parts rows None sizes = map (@Ok _) bs /\
    Forall2 (fun b n => length (fst b) <= n /\ (length (fst b) < n -> snd b = true)) bs sizes /\
    exists rest, Permutation (concat (map fst bs) ++ rest) (concat (map rows (seq 0 parts))) /\ (In true (map snd bs) -> rest = []).
Proof.
  intros Hp Hs.
  assert (HH : forall c, valid_opt parts rows c -> exists bs, calls parts rows c sizes = map (@Ok _) bs /\
    Forall2 (fun b n => length (fst b) <= n /\ (length (fst b) < n -> snd b = true)) bs sizes /\
    exists rest, Permutation (taken_opt parts rows c ++ concat (map fst bs) ++ rest) (everything parts rows) /\
                 (In true (map snd bs) -> rest = [])).
  { induction Hs as [|n ns Hn Hns IH]; intros c Hc; cbn [calls].
    - exists []. split; [reflexivity|]. split; [constructor|].
      destruct (taken_rest parts rows c Hc) as (rest & Hr). exists rest. split; [exact Hr | intros []].
    - destruct (dirty_bundle_ok parts Hp rows c n Hn Hc) as (b & c' & done & -> & Hv & Hl & Ht & Hd & Hless).
      destruct (IH (Some c') Hv) as (bs & -> & Hf & rest & Hr & Hdone). exists ((b, done) :: bs).
      split; [reflexivity|]. split; [constructor; [cbn; auto | exact Hf]|]. exists rest. cbn [map concat fst snd taken_opt] in *.
      split.
      + eapply Permutation_trans; [|exact Hr]. rewrite !app_assoc. apply Permutation_app_tail. rewrite <- !app_assoc.
        rewrite app_assoc. apply Permutation_app_tail. apply Permutation_sym. exact Ht.
      + intros [->|Hi]; [|apply Hdone; exact Hi]. specialize (Hd eq_refl).
        assert (Hx : length (taken parts rows c' ++ concat (map fst bs) ++ rest) = length (taken parts rows c')).
        { erewrite (Permutation_length Hr). symmetry. apply Permutation_length. exact Hd. }
        rewrite !app_length in Hx. destruct rest; [reflexivity | cbn in Hx; lia]. }
  exact (HH None I).
Qed.
Definition db_dirty (ids : list bytes) : db := set_dirty (map (fun x => (x, true)) ids) empty_db.
Example C16_example : smt_bundles (db_dirty [[x00]; [x01]; [x80]; [xff]; [xfe]; [x02]; [xfd]]) 3 =
  Some (Ok [[[x00]; [x80]; [xfd]]; [[x01]; [x02]; [xfe]]; [[xff]]]).
Proof. vm_compute. reflexivity. Qed.
Example C16_calls_example : calls 2 (fun p => if p =? 0 then [[x01]; [x02]; [x03]] else [[x81]]) None [1; 2; 3] =
  [Ok ([[x01]], false); Ok ([[x81]; [x02]], false); Ok ([[x03]], true)].
Proof. vm_compute. reflexivity. Qed.

(** * C19: the trie input of a bundle, keys strictly increasing, each with the value of its own domain. *)
Theorem C19_increasing H entries : NoDup (map fst entries) -> increasing (map fst (smt_input H entries)).
Proof. intros Hn. exact (proj1 (smt_input_ok H entries Hn)). Qed.
Theorem C19_pairs H entries : NoDup (map fst entries) -> length (smt_input H entries) = length entries /\
  forall id v, In (id, v) (smt_input H entries) <->
    exists p, In (id, p) entries /\ ((p = [] /\ v = DefaultLeaf) \/ (p <> [] /\ v = H p)).
Proof.
  intros Hn. destruct (smt_input_ok H entries Hn) as [_ Hp]. split.
  - rewrite (Permutation_length Hp). apply map_length.
  - intros id v. split.
    + intros Hi. apply (Permutation_in _ Hp) in Hi. apply in_map_iff in Hi as ([k p] & Hq & Hi). injection Hq as -> <-.
      exists p. split; [exact Hi|]. destruct p; [left; split; reflexivity | right; split; [discriminate | reflexivity]].
    + intros (p & Hi & Hv). eapply Permutation_in; [apply Permutation_sym; exact Hp|]. apply in_map_iff. exists (id, p).
      split; [|exact Hi]. cbn [fst snd]. destruct Hv as [[-> ->]|[Hne ->]]; [reflexivity|]. destruct p; [congruence | reflexivity].
Qed.
Example C19_example : smt_input (fun p => x77 :: p) [([x03], [x33]); ([x01], []); ([x02], [x22])] =
  [([x01], DefaultLeaf); ([x02], [x77; x22]); ([x03], [x77; x33])].
Proof. reflexivity. Qed.

(** * C20: UpdateSMT, from any tables reached by such updates, for every bundle size: the saved root is that of the content
    overridden by all dirty domains, and a new trie reads that content. Partial: [legal_update] excludes runs in which a
    dirty domain has the value it already had, deletions between other keys (both refuted below), two keys that differ
    in the last bit only, and an update that empties the tree (panic, refuted below). *)
Section C20.
  Variable H : bytes -> bytes.
  Variable limit : nat.
  Variable G : bytes -> Prop.
  Theorem C20_partial max d k m m' :
    (forall x, length (H x) = HashLength) -> collision_free H G -> (forall x, G x -> H x <> zero_hash) ->
    0 < max -> reach H limit G m k -> legal_update H G m d m' ->
    exists k', update_smt H limit max d k = (Ok tt, k') /\ reads H limit m' k' /\ k_root k' = Some (root_of H m').
  Proof. intros H1 H2 H3. exact (reach_update_smt H H1 limit G H2 H3 max d k m m'). Qed.
  Theorem C20_bundling_partial max1 max2 d k m m' :
    (forall x, length (H x) = HashLength) -> collision_free H G -> (forall x, G x -> H x <> zero_hash) ->
    0 < max1 -> 0 < max2 -> reach H limit G m k -> legal_update H G m d m' ->
    k_root (snd (update_smt H limit max1 d k)) = k_root (snd (update_smt H limit max2 d k)).
  Proof.
    intros H1 H2 H3 Hm1 Hm2 Hr Hl.
    destruct (reach_update_smt H H1 limit G H2 H3 max1 d k m m' Hm1 Hr Hl) as (k1 & E1 & _ & R1).
    destruct (reach_update_smt H H1 limit G H2 H3 max2 d k m m' Hm2 Hr Hl) as (k2 & E2 & _ & R2).
    rewrite E1, E2. cbn [snd]. congruence.
  Qed.
  (** C21: a run killed before its first statement or after it: the saved root still gives the old content, and running again
      gives what the uninterrupted run gives. Partial: later crash points are refuted below. *)
  Theorem C21_first_statement_partial max max' d k m m' k1 :
    (forall x, length (H x) = HashLength) -> collision_free H G -> (forall x, G x -> H x <> zero_hash) ->
    0 < max -> 0 < max' -> reach H limit G m k -> legal_update H G m d m' ->
    In k1 (firstn 2 (smt_disks H limit max d k)) ->
    reads H limit m k1 /\ k_root k1 = k_root k /\
    exists k2, update_smt H limit max' d k1 = (Ok tt, k2) /\ reads H limit m' k2 /\
      k_root k2 = k_root (snd (update_smt H limit max d k)).
  Proof.
    intros H1 H2 H3 Hm Hm' Hr Hl Hi.
    assert (Hr1 : reach H limit G m k1 /\ k_root k1 = k_root k).
    { destruct (smt_disks H limit max d k) as [|a [|b l]] eqn:Hq; unfold smt_disks in Hq; [discriminate| |].
      - injection Hq as <- _. destruct Hi as [<-|[]]. split; [exact Hr | reflexivity].
      - injection Hq as <- Hq. destruct Hi as [<-|[<-|[]]]; [split; [exact Hr | reflexivity]|]. split.
        + eapply (reach_killed H limit G m k d max m'); eauto. unfold smt_disks. rewrite Hq. reflexivity.
        + destruct (d_dirty d); [discriminate|]. destruct (smt_bundles d max) as [[bs| |]|]; try discriminate.
          destruct (map (map (entry_of d)) bs) as [|x xs]; cbn [bundle_disks] in Hq.
          * unfold load_root in Hq. destruct (k_root k) as [[|y ys]|]; try discriminate. injection Hq as <- _. reflexivity.
          * destruct (trie_update _ _ _ _ _ _) as [[r| |] s1]; try discriminate. injection Hq as <- _. reflexivity. }
    destruct Hr1 as [Hr1 Hk]. split; [apply (reach_reads H H1 limit G H2 H3 m k1 Hr1)|]. split; [exact Hk|].
    destruct (reach_update_smt H H1 limit G H2 H3 max' d k1 m m' Hm' Hr1 Hl) as (k2 & E2 & D2 & R2).
    destruct (reach_update_smt H H1 limit G H2 H3 max d k m m' Hm Hr Hl) as (k3 & E3 & _ & R3).
    exists k2. split; [exact E2|]. split; [exact D2|]. rewrite E3. cbn [snd]. congruence.
  Qed.
  (** C64: after the update, the response for any name verifies at the client: present with the hash of what domain_payloads holds,
      absent if it holds nothing, provided the domains that were not dirty were in the tree as the tables say. *)
  Theorem C64_partial max d k m m' rlimit name :
    (forall x, length (H x) = HashLength) -> collision_free H G -> (forall x, G x -> H x <> zero_hash) ->
    0 < max -> reach H limit G m k -> legal_update H G m d m' ->
    (forall id, ~ In id (map fst (d_dirty d)) -> synced H d m id) ->
    exists k' r, update_smt H limit max d k = (Ok tt, k') /\ respond H d k' rlimit name = Ok r /\
      match snd (entry_of d (H name)) with
      | [] => verify_proof_by_domain H r = Ok (PoA, true)
      | p => entry r = Some (mk_entry name (H name) (H p)) /\ verify_proof_by_domain H r = Ok (PoP, true)
      end.
  Proof. intros H1 H2 H3. exact (client_after_update H H1 limit G H2 H3 max d k m m' rlimit name). Qed.
  (** And then all domains are, so the hypothesis holds again for the next update. *)
  Theorem C64_synced d m m' : (forall x, length (H x) = HashLength) -> legal_update H G m d m' ->
    (forall id, ~ In id (map fst (d_dirty d)) -> synced H d m id) -> forall id, synced H d m' id.
  Proof. intros H1. exact (all_synced H H1 G d m m'). Qed.
End C20.

(** ** A case that meets the hypotheses *)
(** exH, except that the names "a", "b" and the payloads of their rows have the ids and values of TrieExample. *)
Definition nameA : bytes := [x61].
Definition nameB : bytes := [x62].
Definition certA : bytes := repeat x31 32.
Definition certB : bytes := repeat x32 32.
Definition smtH (x : bytes) : bytes :=
  if beqb x nameA then kA else if beqb x nameB then kB else if beqb x certA then v1 else if beqb x certB then v2 else exH x.
Definition ex_db : db := mk_db [] [] [(kB, true); (kA, true)] [] [] []
  [(kA, mk_pr (Some certA) None None None); (kB, mk_pr None None (Some certB) None)].

Lemma smtH_table x : exG x -> smtH x = exH x.
Proof.
  intros Hx. assert (Hl : 64 <= length x).
  { assert (Hall : forallb (fun s => 64 <=? length s) ex_table = true) by (vm_compute; reflexivity).
    rewrite forallb_forall in Hall. apply Nat.leb_le, Hall, Hx. }
  assert (Hne : forall y, length y < 64 -> beqb x y = false).
  { intros y Hy. apply beqb_neq. intros ->. lia. }
  unfold smtH. rewrite !Hne by (cbn; lia). reflexivity.
Qed.
Lemma smtH_length x : length (smtH x) = HashLength.
Proof. unfold smtH. repeat (destruct (beqb x _); [reflexivity|]). apply table_hash_length. Qed.
Lemma smtH_cf : collision_free smtH exG.
Proof.
  destruct exH_cf as [Ha Hb]. split; intros x y Hx Hy; rewrite (smtH_table x Hx), (smtH_table y Hy); auto.
Qed.
Lemma smtH_nz x : exG x -> smtH x <> zero_hash.
Proof. intros Hx. rewrite smtH_table by exact Hx. apply table_hash_nz. Qed.

Lemma incl_two {A} (x y : A) l : NoDup l -> incl l [x; y] -> Permutation l [] \/ Permutation l [x] \/ Permutation l [y] \/ Permutation l [x; y].
Proof.
  intros Hn Hi. destruct l as [|a [|b [|c l]]].
  - left. apply Permutation_refl.
  - destruct (Hi a (or_introl eq_refl)) as [<-|[<-|[]]]; auto.
  - inversion Hn as [|? ? Hab Hb]; subst. cbn in Hab.
    destruct (Hi a (or_introl eq_refl)) as [<-|[<-|[]]], (Hi b (or_intror (or_introl eq_refl))) as [<-|[<-|[]]]; try tauto.
    + right; right; right. apply Permutation_refl.
    + right; right; right. apply perm_swap.
  - exfalso. pose proof (NoDup_incl_length Hn Hi) as Hl. cbn in Hl. lia.
Qed.
Lemma covers_perm H G m m' : Permutation m m' -> covers H G m -> covers H G m'.
Proof.
  intros Hp [C1 C2]. split.
  - intros s. rewrite <- (build_perm TrieHeight m m' Hp). apply C1.
  - intros k v h Hi. apply C2. eapply Permutation_in; [apply Permutation_sym; exact Hp | exact Hi].
Qed.
Lemma ex_covers_sub m : is_map m -> incl m ex_m1 -> covers smtH exG m.
Proof.
  intros [Hn _] Hi. apply NoDup_keys_NoDup in Hn.
  assert (Hc : forall l, incl l ex_m1 -> forallb (fun s => existsb (beqb s) ex_table) (strings_of smtH TrieHeight (build TrieHeight l)) = true ->
                         covers smtH exG l).
  { intros l Hl Hb. split; [apply ex_in_b; exact Hb|]. intros k v h Hk. apply ex_leaf_in.
    apply Hl in Hk. destruct Hk as [<-|[<-|[]]]; cbn; auto. }
  destruct (incl_two _ _ m Hn Hi) as [Hp|[Hp|[Hp|Hp]]]; (eapply covers_perm; [apply Permutation_sym; exact Hp|]; apply Hc).
  - intros x [].
  - reflexivity.
  - intros x [<-|[]]. cbn. auto.
  - vm_compute. reflexivity.
  - intros x [<-|[]]. cbn. auto.
  - vm_compute. reflexivity.
  - intros x Hx. exact Hx.
  - vm_compute. reflexivity.
Qed.

Example C20_example : legal_update smtH exG [] ex_db ex_m1.
Proof.
  assert (Hb : dirty_batch smtH ex_db = [(kB, v2); (kA, v1)]) by (vm_compute; reflexivity).
  unfold legal_update. rewrite Hb. cbv zeta. split.
  { cbn. constructor; [cbn; intros [Hq|[]]; discriminate|]. constructor; [intros []|constructor]. }
  split; [repeat constructor|].
  split. { intros k v [Hq|[Hq|[]]]; injection Hq as <- <-; split; discriminate. }
  split. { intros (n & x & k1 & k2 & _ & [] & _). }
  split. { intros x y Hx Hy. apply (sep_bit kB kA ltac:(discriminate)); cbn in *; tauto. }
  split.
  { intros c Hc Hnc mc Hmc Ho. apply ex_covers_sub; [exact Hmc|]. intros [k v] Hi.
    apply (In_lookup mc k v (proj1 Hmc)) in Hi. rewrite (Ho k) in Hi. unfold batch_effect in Hi. cbn [lookup] in Hi.
    destruct (lookup c k) as [w|] eqn:Hw; [|discriminate]. apply lookup_In in Hw. apply Hc in Hw.
    destruct (beqb w DefaultLeaf); [discriminate|]. injection Hi as <-. destruct Hw as [Hw|[Hw|[]]]; rewrite <- Hw; cbn; auto. }
  split; [exact ex_map1|]. split; [|discriminate].
  intros k. unfold batch_effect. cbn [lookup ex_m1].
  destruct (beqb_spec kA k) as [Ha|Ha]; destruct (beqb_spec kB k) as [Hb'|Hb']; try reflexivity.
  rewrite <- Ha in Hb'. discriminate.
Qed.
Example C20_run : let k1 := snd (update_smt smtH 32 1 ex_db (mk_disk (fun _ => None) None)) in
  let k2 := snd (update_smt smtH 32 2 ex_db (mk_disk (fun _ => None) None)) in
  k_root k1 = Some (root_of smtH ex_m1) /\ k_root k2 = Some (root_of smtH ex_m1) /\
  fst (trie_get 32 (load_root k1) kB (new_trie k1)) = Ok v2.
Proof. vm_compute. repeat split. Qed.
Example C64_example : let k := snd (update_smt smtH 32 1 ex_db (mk_disk (fun _ => None) None)) in
  (exists r, respond smtH ex_db k 32 nameA = Ok r /\ entry r = Some (mk_entry nameA kA v1) /\ verify_proof_by_domain smtH r = Ok (PoP, true)) /\
  (exists r, respond smtH ex_db k 32 [x63] = Ok r /\ verify_proof_by_domain smtH r = Ok (PoA, true)) /\
  forall id, ~ In id (map fst (d_dirty ex_db)) -> synced smtH ex_db [] id.
Proof.
  cbv zeta. split; [|split].
  - eexists. split; [vm_compute; reflexivity|]. split; vm_compute; reflexivity.
  - eexists. split; [vm_compute; reflexivity|]. vm_compute. reflexivity.
  - intros id Hi. unfold synced. cbn [lookup]. unfold entry_of. cbn [d_pay ex_db find fst].
    destruct (beqb_spec kA id) as [<-|Ha]; [exfalso; apply Hi; cbn; auto|].
    destruct (beqb_spec kB id) as [<-|Hb]; [exfalso; apply Hi; cbn; auto|]. reflexivity.
Qed.
(** * Refutations, with the real SHA-256 *)
Definition no_tree : disk := mk_disk (fun _ => None) None.
(** Tables with rows of domain_payloads (id, certificate ids) and dirty ids. *)
Definition db_rows (rows : list (bytes * bytes)) (dirty : list bytes) : db :=
  mk_db [] [] (map (fun x => (x, true)) dirty) [] [] [] (map (fun r => (fst r, mk_pr (Some (snd r)) None None None)) rows).
Definition run_smt (max : nat) (d : db) (k : disk) : res unit * disk := update_smt sha256 32 max d k.
Definition read_key (k : disk) (key : bytes) : res bytes := fst (trie_get 32 (load_root k) key (new_trie k)).
Definition rowX : bytes * bytes := (key1 x10, val1 x41).
Definition rowX2 : bytes * bytes := (key1 x10, val1 x42).
Definition tables1 : db := db_rows [rowX] [key1 x10].
Definition disk1 : disk := snd (run_smt 10 tables1 no_tree).

(** C20: a domain marked dirty whose certificates did not change: UpdateSMT reports success and the tree is gone. *)
Theorem C20_unchanged_refuted : exists d k key v,
  fst (run_smt 10 d no_tree) = Ok tt /\ snd (run_smt 10 d no_tree) = k /\ read_key k key = Ok v /\ v <> [] /\
  fst (run_smt 10 d k) = Ok tt /\ k_root (snd (run_smt 10 d k)) = k_root k /\ read_key (snd (run_smt 10 d k)) key = Err.
Proof.
  exists tables1, disk1, (key1 x10), (sha256 (val1 x41)). unfold disk1.
  split; [vm_compute; reflexivity|]. split; [reflexivity|]. split; [vm_compute; reflexivity|]. split; [vm_compute; discriminate|].
  split; [vm_compute; reflexivity|]. split; vm_compute; reflexivity.
Qed.
(** C20: an update that removes the last domain panics, however often it runs, and the tree keeps the domain. *)
Theorem C20_emptied_refuted : exists d1 d2 key,
  fst (run_smt 10 d1 no_tree) = Ok tt /\
  let k1 := snd (run_smt 10 d1 no_tree) in
  fst (run_smt 10 d2 k1) = Panic /\ read_key (snd (run_smt 10 d2 k1)) key = read_key k1 key /\ snd (entry_of d2 key) = [] /\
  fst (run_smt 10 d2 (snd (run_smt 10 d2 k1))) = Panic.
Proof.
  exists tables1, (db_rows [] [key1 x10]), (key1 x10). cbv zeta.
  split; [vm_compute; reflexivity|]. split; [vm_compute; reflexivity|]. split; [vm_compute; reflexivity|]. split; vm_compute; reflexivity.
Qed.
(** C20: the result depends on the bundle size. Two domains are deleted, four are new; with bundles of six the root is that
    of the four new ones, with bundles of three it is not. *)
Definition split1 : db := db_rows [(key1 x04, val1 x41); (key1 x06, val1 x42)] [key1 x04; key1 x06].
Definition split2 : db := db_rows [(key1 x01, val1 x43); (key1 x02, val1 x44); (key1 x05, val1 x45); (key1 x07, val1 x46)]
  [key1 x01; key1 x02; key1 x04; key1 x05; key1 x06; key1 x07].
Definition is_ok {A} (x : res A) : bool := match x with Ok _ => true | _ => false end.
Definition same_root (a b : option bytes) : bool := match a, b with Some x, Some y => beqb x y | None, None => true | _, _ => false end.
Lemma same_root_eq a b : same_root a b = true <-> a = b.
Proof. destruct a as [a|], b as [b|]; cbn; split; try discriminate; auto; [intros Hq; apply beqb_eq in Hq; congruence | intros Hq; injection Hq as ->; apply beqb_refl]. Qed.
Lemma is_ok_tt (x : res unit) : is_ok x = true -> x = Ok tt.
Proof. destruct x as [[]| |]; [reflexivity | discriminate | discriminate]. Qed.
Definition split_check (a1 a6 a3 : res unit * disk) (want : bytes) : bool :=
  is_ok (fst a1) && is_ok (fst a6) && is_ok (fst a3) && same_root (k_root (snd a6)) (Some want) && negb (same_root (k_root (snd a3)) (k_root (snd a6))).
Definition split_content (d : db) : kvmap := map (fun r => (fst r, sha256 (snd (entry_of d (fst r))))) (d_pay d).
Lemma split_checked : (let a1 := run_smt 10 split1 no_tree in
  split_check a1 (run_smt 6 split2 (snd a1)) (run_smt 3 split2 (snd a1)) (root_of sha256 (split_content split2))) = true.
Proof. vm_compute. reflexivity. Qed.
Theorem C20_bundling_refuted : exists d1 d2,
  let k := snd (run_smt 10 d1 no_tree) in
  fst (run_smt 10 d1 no_tree) = Ok tt /\ fst (run_smt 6 d2 k) = Ok tt /\ fst (run_smt 3 d2 k) = Ok tt /\
  k_root (snd (run_smt 6 d2 k)) = Some (root_of sha256 (split_content d2)) /\
  k_root (snd (run_smt 3 d2 k)) <> k_root (snd (run_smt 6 d2 k)).
Proof.
  exists split1, split2. pose proof split_checked as Hc. cbv zeta in *. unfold split_check in Hc.
  apply andb_true_iff in Hc as [Hc H5]. apply andb_true_iff in Hc as [Hc H4]. apply andb_true_iff in Hc as [Hc H3].
  apply andb_true_iff in Hc as [H1 H2].
  split; [exact (is_ok_tt _ H1)|]. split; [exact (is_ok_tt _ H2)|]. split; [exact (is_ok_tt _ H3)|].
  split; [exact (proj1 (same_root_eq _ _) H4)|]. intros Hq. apply (proj2 (same_root_eq _ _)) in Hq. apply negb_true_iff in H5. congruence.
Qed.
(** C64: the same domain dirty in two updates, its payload unchanged in between: both updates succeed, after the first the
    response for its name verifies, after the second there is no response. *)
Theorem C64_unchanged_refuted : exists d name, snd (entry_of d (sha256 name)) <> [] /\
  let k1 := snd (run_smt 10 d no_tree) in
  fst (run_smt 10 d no_tree) = Ok tt /\
  match respond sha256 d k1 32 name with Ok r => verify_proof_by_domain sha256 r | Err => Err | Panic => Panic end = Ok (PoP, true) /\
  fst (run_smt 10 d k1) = Ok tt /\ respond sha256 d (snd (run_smt 10 d k1)) 32 name = Err.
Proof.
  exists (db_rows [(sha256 nameA, val1 x41)] [sha256 nameA]), nameA. cbv zeta. split; [vm_compute; discriminate|].
  split; [vm_compute; reflexivity|]. split; [vm_compute; reflexivity|]. split; vm_compute; reflexivity.
Qed.
(** C21: killed between DeleteTreeNodes and SaveRoot, the saved root is the old one and its nodes are deleted: neither the old nor the
    new content can be read, and running the update again fails every time. *)
Definition tables2 : db := db_rows [rowX2] [key1 x10].
Theorem C21_old_or_new_refuted : exists d1 d2 key k,
  fst (run_smt 10 d1 no_tree) = Ok tt /\ let k1 := snd (run_smt 10 d1 no_tree) in
  nth_error (smt_disks sha256 32 10 d2 k1) 2 = Some k /\ k_root k = k_root k1 /\
  read_key k key = Err /\ fst (run_smt 10 d2 k) = Err /\ fst (run_smt 10 d2 k1) = Ok tt.
Proof.
  exists tables1, tables2, (key1 x10), (nth 2 (smt_disks sha256 32 10 tables2 (snd (run_smt 10 tables1 no_tree))) no_tree). cbv zeta.
  split; [vm_compute; reflexivity|].
  split. { assert (Hl : length (smt_disks sha256 32 10 tables2 (snd (run_smt 10 tables1 no_tree))) = 4) by (vm_compute; reflexivity).
    apply nth_error_nth'. rewrite Hl. lia. }
  split; [vm_compute; reflexivity|]. split; [vm_compute; reflexivity|]. split; vm_compute; reflexivity.
Qed.
(** C21: killed after SaveRoot but before the dirty domains are cleared, the update runs again on the new tree with the values it
    already has, reports success and deletes the tree (as in C20_unchanged_refuted). *)
Theorem C21_rerun_refuted : exists d k key v,
  nth_error (smt_disks sha256 32 10 d no_tree) 3 = Some k /\ read_key k key = Ok v /\ v <> [] /\
  fst (run_smt 10 d k) = Ok tt /\ read_key (snd (run_smt 10 d k)) key = Err.
Proof.
  exists tables1, (nth 3 (smt_disks sha256 32 10 tables1 no_tree) no_tree), (key1 x10), (sha256 (val1 x41)).
  split. { assert (Hl : length (smt_disks sha256 32 10 tables1 no_tree) = 4) by (vm_compute; reflexivity).
    apply nth_error_nth'. rewrite Hl. lia. }
  split; [vm_compute; reflexivity|]. split; [vm_compute; discriminate|]. split; vm_compute; reflexivity.
Qed.

Print Assumptions C16_bundles.
Print Assumptions C16_calls.
Print Assumptions C19_increasing.
Print Assumptions C19_pairs.
Print Assumptions C20_partial.
Print Assumptions C20_bundling_partial.
Print Assumptions C20_unchanged_refuted.
Print Assumptions C20_emptied_refuted.
Print Assumptions C20_bundling_refuted.
Print Assumptions C21_first_statement_partial.
Print Assumptions C21_old_or_new_refuted.
Print Assumptions C21_rerun_refuted.
Print Assumptions C64_partial.
Print Assumptions C64_unchanged_refuted.
Print Assumptions C64_synced.
