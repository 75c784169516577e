(** Consequences of the trie lemmas in the form of the properties: roots determine contents, sequences of reads, the client. *)
From Coq Require Import Permutation.
From Verif Require Import Base TrieModel TrieSpec BaseLemmas TrieMaps TrieHash TrieStore TrieBatch TrieUpdate TrieCodec
  TrieRead TrieSound TrieHistory ClientModel.

Definition value_in (m : kvmap) (key : bytes) : bytes := match lookup m key with Some v => v | None => [] end.

Fixpoint gets (limit : nat) (root : bytes) (keys : list bytes) : M (list bytes) :=
  match keys with
  | [] => ret []
  | k :: rest => v <- trie_get limit root k ;; vs <- gets limit root rest ;; ret (v :: vs)
  end.

Section Top.
  Variable H : bytes -> bytes.
  Hypothesis Hlen : forall x, length (H x) = HashLength.
  Variable limit : nat.
  Variable G : bytes -> Prop.
  Hypothesis Hcf : collision_free H G.
  Hypothesis Hnz : forall x, G x -> H x <> zero_hash.

  Lemma lookup_perm m m' : NoDup (keys m) -> NoDup (keys m') -> Permutation m m' -> forall k, lookup m k = lookup m' k.
  Proof.
    intros Hn Hn' Hp k. destruct (lookup m k) as [v|] eqn:Hk.
    - symmetry. apply In_lookup; [exact Hn'|]. eapply Permutation_in; [exact Hp|]. apply lookup_In. exact Hk.
    - destruct (lookup m' k) as [v|] eqn:Hk'; [|reflexivity]. apply lookup_In in Hk'.
      assert (Hi : In (k, v) m) by (eapply Permutation_in; [apply Permutation_sym; exact Hp | exact Hk']).
      apply (In_lookup m k v Hn) in Hi. congruence.
  Qed.

  Lemma root_content m m' : top H G m -> top H G m' -> root_of H m = root_of H m' -> forall k, lookup m k = lookup m' k.
  Proof.
    intros Ht Ht' Hq. pose proof (top_good H G m Ht) as Hg. pose proof (top_good H G m' Ht') as Hg'.
    destruct Ht as (Hd & Hn & _), Ht' as (Hd' & Hn' & _).
    assert (Hb : build TrieHeight m = build TrieHeight m').
    { unfold root_of in Hq. destruct (build TrieHeight m) as [|k v|l r] eqn:Hm.
      - symmetry in Hq. apply hash_nil in Hq; [congruence|exact Hlen].
      - eapply (hash_inj H Hlen G Hcf TrieHeight _ TrieHeight); eauto. discriminate.
      - eapply (hash_inj H Hlen G Hcf TrieHeight _ TrieHeight); eauto. discriminate. }
    apply lookup_perm; auto. eapply Permutation_trans; [apply Permutation_sym, (build_leaves TrieHeight); auto|].
    rewrite Hb. apply build_leaves; auto.
  Qed.

  Lemma content_root m m' : is_map m -> is_map m' -> (forall k, lookup m k = lookup m' k) -> root_of H m = root_of H m'.
  Proof.
    intros Hm Hm' Hq. unfold root_of. rewrite (build_perm TrieHeight m m'); [reflexivity|].
    apply lookup_ext_perm; [apply Hm | apply Hm' | exact Hq].
  Qed.

  Lemma gets_represented m ks : forall s, represents H G m s ->
    runs (gets limit (root_of H m) ks) s (fun vs s' => vs = map (value_in m) ks /\ represents H G m s').
  Proof.
    induction ks as [|k ks IH]; intros s Hr; cbn [gets].
    - apply runs_ret. auto.
    - apply runs_bind. eapply runs_mono; [|apply (get_represented H Hlen limit G Hcf m s k Hr)]. cbv beta.
      intros v s1 (Hv & Hr1 & _). apply runs_bind. eapply runs_mono; [|apply IH; exact Hr1]. cbv beta.
      intros vs s2 (-> & Hr2). apply runs_ret. subst v. auto.
  Qed.

  Lemma history_represented ops m : history H G 0 [] ops m ->
    exists s, run_ops H limit ops [] fresh = (Ok (root_of H m), s) /\ represents H G m s.
  Proof. apply (run_history H Hlen limit G Hcf Hnz). apply covers_nil. Qed.

  Lemma history_gets ops m ks : history H G 0 [] ops m ->
    exists s s', run_ops H limit ops [] fresh = (Ok (root_of H m), s) /\
                 gets limit (root_of H m) ks s = (Ok (map (value_in m) ks), s').
  Proof.
    intros Hh. destruct (history_represented ops m Hh) as (s & Hs & Hr).
    destruct (gets_represented m ks s Hr) as (vs & s' & Hg & -> & _). exists s, s'. auto.
  Qed.

  Lemma history_top ops m : history H G 0 [] ops m -> top H G m.
  Proof.
    intros Hh. destruct (history_represented ops m Hh) as (s & _ & Hr). eapply represents_top. exact Hr.
  Qed.
  Lemma history_is_map ops m : history H G 0 [] ops m -> is_map m.
  Proof. intros Hh. destruct (history_represented ops m Hh) as (s & _ & Hr). apply Hr. Qed.

  Lemma history_roots ops ops' m m' : history H G 0 [] ops m -> history H G 0 [] ops' m' ->
    (root_of H m = root_of H m' <-> forall k, lookup m k = lookup m' k).
  Proof.
    intros Hh Hh'. split.
    - apply root_content; eapply history_top; eauto.
    - apply content_root; eapply history_is_map; eauto.
  Qed.

  Lemma history_run_roots ops ops' m m' : history H G 0 [] ops m -> history H G 0 [] ops' m' ->
    (fst (run_ops H limit ops [] fresh) = fst (run_ops H limit ops' [] fresh) <-> forall k, lookup m k = lookup m' k).
  Proof.
    intros Hh Hh'. rewrite <- (history_roots ops ops' m m' Hh Hh').
    destruct (history_represented ops m Hh) as (s & -> & _), (history_represented ops' m' Hh') as (s' & -> & _).
    cbn [fst]. split; [intros Hq; injection Hq; auto | intros ->; reflexivity].
  Qed.

  Lemma history_proof ops m key : history H G 0 [] ops m -> length key = HashLength ->
    exists s s' ap inc pk pv,
      run_ops H limit ops [] fresh = (Ok (root_of H m), s) /\
      trie_merkle_proof limit (root_of H m) key s = (Ok (ap, inc, pk, pv), s') /\
      good_proof H m key (ap, inc, pk, pv).
  Proof.
    intros Hh Hk. destruct (history_represented ops m Hh) as (s & Hs & Hr).
    destruct (merkle_represented H Hlen limit G Hcf m s key Hr Hk) as (r & s' & Hp & Hgp & _).
    destruct r as [[[ap inc] pk] pv]. exists s, s', ap, inc, pk, pv. auto.
  Qed.

  Lemma map_top m : is_map m -> sep (keys m) -> covers H G m -> top H G m.
  Proof.
    intros Hm Hs Hc. split; [apply dom_top; [apply is_map_lens; exact Hm | exact Hs]|].
    split; [apply Hm|]. split; [apply is_map_vals; exact Hm | apply Hc].
  Qed.

  Lemma run_ops_app a b root s : run_ops H limit (a ++ b) root s = (r <- run_ops H limit a root ;; run_ops H limit b r) s.
  Proof.
    revert root s. induction a as [|o a IH]; intros root s; cbn [app run_ops]; [reflexivity|].
    unfold bind in *. destruct (run_op H limit o root s) as [[r| |] s1]; [|reflexivity|reflexivity]. apply IH.
  Qed.
  Lemma history_durable ops m ks : history H G 0 [] (ops ++ [OpCommit; OpReopen]) m ->
    exists s s', run_ops H limit (ops ++ [OpCommit; OpReopen]) [] fresh = (Ok (root_of H m), s) /\
                 live s = (fun _ => None) /\ updated s = (fun _ => None) /\
                 gets limit (root_of H m) ks s = (Ok (map (value_in m) ks), s').
  Proof.
    intros Hh. destruct (history_gets _ m ks Hh) as (s & s' & Hr & Hg). exists s, s'. split; [exact Hr|].
    rewrite run_ops_app in Hr. unfold bind in Hr.
    destruct (run_ops H limit ops [] fresh) as [[r| |] s1]; [|discriminate|discriminate].
    cbn in Hr. injection Hr as _ <-. split; [reflexivity|]. split; [reflexivity | exact Hg].
  Qed.

  Lemma split_keys_exact n kvs : increasing (keys kvs) ->
    (forall a b, In a (keys kvs) -> In b (keys kvs) -> length a = length b) ->
    (forall a b, In a (keys kvs) -> In b (keys kvs) -> agree n a b) ->
    split_keys kvs n = (filter (fun kv => negb (bit (fst kv) n)) kvs, filter (fun kv => bit (fst kv) n) kvs) /\
    fst (split_keys kvs n) ++ snd (split_keys kvs n) = kvs.
  Proof.
    intros Hi Hl Ha. split.
    - rewrite (split_keys_any n kvs Hi Ha Hl). unfold side. f_equal; apply filter_ext; intros [k v]; cbn [fst]; destruct (bit k n); reflexivity.
    - clear. induction kvs as [|kv kvs IH]; [reflexivity|]. cbn [split_keys]. destruct (bit (fst kv) n); [reflexivity|].
      destruct (split_keys kvs n) as [l r]. cbn [fst snd app] in *. f_equal. exact IH.
  Qed.

  (** ** The client *)
  Lemma client_presence m e p : top H G m ->
    length (de_id e) = HashLength -> length (de_value e) = HashLength ->
    proof_root p = Some (root_of H m) -> legal_path (proof_path p) ->
    G (de_id e ++ de_value e ++ [depth_byte (length (proof_path p))]) ->
    (forall s, In s (path_strings H (proof_path p) 0 (length (proof_path p)) (de_id e)
                       (H (de_id e ++ de_value e ++ [depth_byte (length (proof_path p))]))) -> G s) ->
    verify_proof_by_domain H (mk_response (Some e) p) = Ok (PoP, true) ->
    proof_value p = de_value e /\ lookup m (de_id e) = Some (de_value e).
  Proof.
    intros Ht Hk Hv Hroot Hl Hg Hgs. unfold verify_proof_by_domain. cbn [entry the_poi]. rewrite Hroot.
    destruct (Z.eqb_spec (proof_type p) PoP) as [_|_].
    - destruct (beqb_spec (de_value e) (proof_value p)) as [Hq|]; [|discriminate].
      destruct (verify_inclusion H (root_of H m) (proof_path p) (de_id e) (de_value e)) as [[|]|] eqn:Hvi; try discriminate.
      intros _. split; [congruence|]. eapply (inclusion_sound H Hlen G Hcf); eauto.
    - destruct (verify_non_inclusion _ _ _ _ _ _) as [[|]|]; discriminate.
  Qed.

  Lemma client_absence m e p : top H G m -> unambiguous H TrieHeight (build TrieHeight m) ->
    length (de_id e) = HashLength ->
    proof_root p = Some (root_of H m) -> legal_path (proof_path p) ->
    (proof_key p = [] \/
     length (proof_key p) = HashLength /\ length (proof_value p) = HashLength /\ proof_key p <> de_id e) ->
    (proof_key p <> [] ->
       G (proof_key p ++ proof_value p ++ [depth_byte (length (proof_path p))]) /\
       forall s, In s (path_strings H (proof_path p) 0 (length (proof_path p)) (proof_key p)
                         (H (proof_key p ++ proof_value p ++ [depth_byte (length (proof_path p))]))) -> G s) ->
    (proof_key p = [] ->
       forall s, In s (path_strings H (proof_path p) 0 (length (proof_path p)) (de_id e) DefaultLeaf) -> G s) ->
    verify_proof_by_domain H (mk_response (Some e) p) = Ok (PoA, true) ->
    lookup m (de_id e) = None.
  Proof.
    intros Ht Hu Hk Hroot Hl Hpk Hg1 Hg2. unfold verify_proof_by_domain. cbn [entry the_poi]. rewrite Hroot.
    destruct (Z.eqb_spec (proof_type p) PoP) as [_|_].
    - destruct (beqb _ _); [|discriminate].
      destruct (verify_inclusion _ _ _ _ _) as [[|]|]; discriminate.
    - destruct (verify_non_inclusion H (Some (root_of H m)) (proof_path p) (de_id e) (proof_value p) (proof_key p)) as [[|]|] eqn:Hvi;
        try discriminate.
      intros _. eapply (non_inclusion_sound H Hlen G Hcf); eauto.
  Qed.

  Lemma client_honest payload m s name : represents H G m s ->
    (forall v, lookup m (H name) = Some v -> payload (H name) = v) ->
    runs (get_proof_part H payload limit (root_of H m) name) s (fun r s' =>
      (match lookup m (H name) with
       | Some v => entry r = Some (mk_entry name (H name) v) /\ verify_proof_by_domain H r = Ok (PoP, true)
       | None => verify_proof_by_domain H r = Ok (PoA, true)
       end) /\ represents H G m s').
  Proof.
    intros Hr Hpay. unfold get_proof_part. apply runs_bind.
    eapply runs_mono; [|apply (merkle_represented H Hlen limit G Hcf m s (H name) Hr (Hlen _))]. cbv beta.
    intros [[[ap inc] pk] pv] s' (Hgp & Hr' & _). apply runs_ret. split; [|exact Hr'].
    destruct Hgp as (_ & _ & Hm). destruct (lookup m (H name)) as [v|].
    - destruct Hm as (-> & -> & -> & Hv). rewrite (Hpay v eq_refl). split; [reflexivity|].
      unfold verify_proof_by_domain. cbn [entry the_poi proof_type de_value proof_value proof_root proof_path de_id].
      change (Z.eqb PoP PoP) with true. cbv iota. rewrite beqb_refl.
      replace (match (match root_of H m with [] => None | _ :: _ => Some (root_of H m) end) with
               | Some x => x | None => [] end) with (root_of H m) by (destruct (root_of H m); reflexivity).
      rewrite Hv. reflexivity.
    - destruct Hm as (-> & _ & Hv). unfold verify_proof_by_domain.
      cbn [entry the_poi proof_type de_value proof_value proof_root proof_path de_id proof_key].
      change (Z.eqb PoA PoP) with false. cbv iota.
      replace (match root_of H m with [] => None | _ :: _ => Some (root_of H m) end) with (go_root (root_of H m))
        by reflexivity.
      rewrite Hv. reflexivity.
  Qed.
End Top.
