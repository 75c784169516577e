(** Proofs about the update of the tree from the tables. *)
From Coq Require Import Permutation.
From Verif Require Import Base BaseLemmas UtilModel UtilIds DbModel DbTables DbCoalesce BundleModel BundleProofs.
From Verif Require Import TrieModel TrieSpec TrieMaps TrieHash TrieStore TrieBatch TrieUpdate TrieCodec TrieRead TrieSound TrieHistory TrieTop
  ClientModel SmtModel.

Section SmtProofs.
  Variable H : bytes -> bytes.
  Hypothesis Hlen : forall x, length (H x) = HashLength.
  Variable limit : nat.
  Variable G : bytes -> Prop.
  Hypothesis Hcf : collision_free H G.
  Hypothesis Hnz : forall x, G x -> H x <> zero_hash.

  Definition vals (es : list (bytes * bytes)) : kvmap := map (fun e => (fst e, smt_value H (snd e))) es.
  Definition on_disk (m : kvmap) (k : disk) : Prop := represents H G m (new_trie k) /\ load_root k = root_of H m.

  Lemma keys_vals es : keys (vals es) = map fst es.
  Proof. unfold keys, vals. rewrite map_map. reflexivity. Qed.
  Lemma vals_app a b : vals (a ++ b) = vals a ++ vals b.
  Proof. apply map_app. Qed.
  Lemma smt_value_len p : length (smt_value H p) = HashLength \/ smt_value H p = DefaultLeaf.
  Proof. destruct p; [right; reflexivity | left; apply Hlen]. Qed.
  Lemma default_len : length DefaultLeaf <> HashLength.
  Proof. vm_compute. discriminate. Qed.

  Lemma in_vals k v es : In (k, v) (vals es) -> length v = HashLength \/ v = DefaultLeaf.
  Proof. intros Hi. apply in_map_iff in Hi as (e & Hq & _). injection Hq as _ <-. apply smt_value_len. Qed.

  Lemma input_batch es : NoDup (map fst es) -> Forall (fun k => length k = HashLength) (map fst es) ->
    is_batch (smt_input H es) /\ Permutation (smt_input H es) (vals es).
  Proof.
    intros Hn Hl. destruct (smt_input_ok H es Hn) as [Hi Hp]. split; [|exact Hp]. split; [exact Hi|].
    apply Forall_forall. intros [k v] Hin. apply (Permutation_in _ Hp) in Hin. cbn [fst snd]. split; [|eapply in_vals; exact Hin].
    rewrite Forall_forall in Hl. apply Hl. rewrite <- keys_vals. eapply in_keys. exact Hin.
  Qed.

  Lemma perm_keys (a b : kvmap) : Permutation a b -> Permutation (keys a) (keys b).
  Proof. apply Permutation_map. Qed.

  Lemma effective_perm m a b : Permutation a b -> effective m a -> effective m b.
  Proof. intros Hp He k v Hi. apply He. eapply Permutation_in; [apply Permutation_sym; exact Hp | exact Hi]. Qed.
  Lemma straddled_perm m a b : Permutation a b -> straddled m a -> straddled m b.
  Proof.
    intros Hp (n & d & k1 & k2 & H1 & H2 & H3 & H4 & H5). exists n, d, k1, k2.
    split; [eapply Permutation_in; eauto|]. split; [exact H2|].
    split; [eapply Permutation_in; [apply perm_keys; exact Hp | exact H3]|].
    split; [eapply Permutation_in; [apply perm_keys; exact Hp | exact H4] | exact H5].
  Qed.
  Lemma sep_perm a b : Permutation a b -> sep a -> sep b.
  Proof. intros Hp. apply sep_incl. intros x. apply Permutation_in. apply Permutation_sym. exact Hp. Qed.

  Lemma overridden_perm m a b m' : NoDup (keys a) -> Permutation a b -> overridden m a m' -> overridden m b m'.
  Proof.
    intros Hn Hp Ho k. rewrite (Ho k). unfold batch_effect. rewrite (perm_lookup a b Hn Hp k). reflexivity.
  Qed.

  Lemma is_map_over m es : is_map m -> NoDup (map fst es) -> Forall (fun k => length k = HashLength) (map fst es) ->
    is_map (over m (vals es)).
  Proof.
    intros [Hn Hf] He Hl. split; [apply over_NoDup; [exact Hn | rewrite keys_vals; exact He]|].
    apply Forall_forall. intros [k v] Hi. rewrite Forall_forall in Hf. apply in_over in Hi as [[Hi _]|[Hi Hne]]; [apply (Hf _ Hi)|].
    cbn [fst snd]. split.
    - rewrite Forall_forall in Hl. apply Hl. rewrite <- keys_vals. eapply in_keys. exact Hi.
    - destruct (in_vals _ _ _ Hi); [assumption | contradiction].
  Qed.

  (** ** One bundle *)
  Lemma input_legal m es : is_map m -> NoDup (map fst es) -> Forall (fun k => length k = HashLength) (map fst es) ->
    effective m (vals es) -> ~ straddled m (vals es) -> sep (keys m ++ map fst es) -> covers H G (over m (vals es)) ->
    let b := smt_input H es in let m' := over m (vals es) in
    is_batch b /\ effective m b /\ ~ straddled m b /\ sep (keys m ++ keys b) /\ is_map m' /\ overridden m b m' /\ covers H G m'.
  Proof.
    intros Hm Hn Hl He Hs Hsep Hc. cbv zeta. destruct (input_batch es Hn Hl) as [Hb Hp].
    pose proof (Permutation_sym Hp) as Hp'.
    split; [exact Hb|]. split; [eapply effective_perm; eauto|].
    split; [intros Hx; apply Hs; eapply straddled_perm; eauto|].
    split. { eapply sep_perm; [|exact Hsep]. apply Permutation_app_head. rewrite <- keys_vals. apply perm_keys. exact Hp'. }
    split; [apply is_map_over; assumption|]. split; [|exact Hc].
    apply (overridden_perm m (vals es)); [rewrite keys_vals; exact Hn | exact Hp'|].
    apply over_overridden. rewrite keys_vals. exact Hn.
  Qed.

  Lemma update_entries_ok m es s : inv H G 0 m s -> NoDup (map fst es) -> Forall (fun k => length k = HashLength) (map fst es) ->
    effective m (vals es) -> ~ straddled m (vals es) -> sep (keys m ++ map fst es) -> covers H G (over m (vals es)) ->
    runs (update_entries H limit (root_of H m) es) s (fun r s' => r = root_of H (over m (vals es)) /\ inv H G 0 (over m (vals es)) s').
  Proof.
    intros Hinv Hn Hl He Hs Hsep Hc.
    destruct (input_legal m es (proj1 (proj1 Hinv)) Hn Hl He Hs Hsep Hc) as (B1 & B2 & B3 & B4 & B5 & B6 & B7).
    unfold update_entries. apply runs_bind. eapply runs_mono; [|eapply (update_inv H Hlen limit G Hcf Hnz 0 m s); eauto]. cbv beta.
    intros r s1 (-> & Hi & _). apply runs_bind. eapply runs_mono; [|eapply (commit_inv H Hlen G 1); [lia | exact Hi]]. cbv beta.
    intros _ s2 Hi2. apply runs_bind. eapply runs_mono; [|apply (reset_inv H G 0 _ s2 Hi2)]. cbv beta.
    intros _ s3 Hi3. apply runs_ret. split; [reflexivity | exact Hi3].
  Qed.

  (** ** All bundles *)
  Lemma lookup_over_other m es k : NoDup (map fst es) -> ~ In k (map fst es) -> lookup (over m (vals es)) k = lookup m k.
  Proof.
    intros Hn Hi. rewrite over_lookup by (rewrite keys_vals; exact Hn). unfold batch_effect.
    rewrite (proj2 (lookup_None (vals es) k)); [reflexivity|]. rewrite keys_vals. exact Hi.
  Qed.

  Lemma lookup_over_in m es k v : NoDup (map fst es) -> In (k, v) (vals es) ->
    lookup (over m (vals es)) k = if beqb v DefaultLeaf then None else Some v.
  Proof.
    intros Hn Hi. rewrite over_lookup by (rewrite keys_vals; exact Hn). unfold batch_effect.
    rewrite (In_lookup (vals es) k v); [reflexivity | rewrite keys_vals; exact Hn | exact Hi].
  Qed.

  Lemma nodup_split {A} (a b : list A) : NoDup (a ++ b) -> NoDup a /\ NoDup b /\ forall x, In x a -> ~ In x b.
  Proof.
    induction a as [|y a IH]; simpl; intros Hn; [split; [constructor|]; split; [exact Hn|]; intros x []|].
    inversion Hn as [|? ? Hi Hn']; subst. destruct (IH Hn') as (Ha & Hb & Hd). split; [|split; [exact Hb|]].
    - constructor; [|exact Ha]. intros Hx. apply Hi. apply in_app_iff. auto.
    - intros x [<-|Hx]; [|apply Hd; exact Hx]. intros Hx. apply Hi. apply in_app_iff. auto.
  Qed.

  Lemma effective_rest m a b : NoDup (map fst (a ++ b)) -> effective m (vals (a ++ b)) -> effective (over m (vals a)) (vals b).
  Proof.
    intros Hn He k v Hi. rewrite map_app in Hn. destruct (nodup_split _ _ Hn) as (Ha & Hb & Hd).
    assert (Hk : ~ In k (map fst a)).
    { intros Hx. apply (Hd k Hx). rewrite <- keys_vals. eapply in_keys. exact Hi. }
    destruct (He k v) as [E1 E2]. { rewrite vals_app. apply in_app_iff. auto. }
    rewrite (lookup_over_other m a k Ha Hk). split; [exact E1|]. intros Hv. specialize (E2 Hv).
    destruct (lookup (over m (vals a)) k) as [w|] eqn:Hq; [eapply lookup_Some_keys; exact Hq|].
    rewrite (lookup_over_other m a k Ha Hk) in Hq. apply lookup_None in Hq. contradiction.
  Qed.

  Lemma clears_first m a b : NoDup (map fst (a ++ b)) -> straddled m (vals a) -> clears_between m (vals (a ++ b)).
  Proof.
    intros Hn (n & d & k1 & k2 & H1 & H2 & H3 & H4 & H5 & H6 & H7 & H8 & H9). exists n, d, k1, k2.
    rewrite vals_app. unfold keys. rewrite map_app. rewrite !in_app_iff.
    repeat split; auto. intros x Hx Ha. rewrite in_app_iff. left. rewrite (H9 x Hx Ha). exact H1.
  Qed.
  Lemma clears_rest m a b : NoDup (map fst (a ++ b)) -> effective m (vals (a ++ b)) ->
    clears_between (over m (vals a)) (vals b) -> clears_between m (vals (a ++ b)).
  Proof.
    intros Hn He (n & d & k1 & k2 & H1 & H2 & H3 & H4 & H5 & H6 & H7 & H8 & H9). exists n, d, k1, k2.
    pose proof Hn as Hn'. rewrite map_app in Hn'. destruct (nodup_split _ _ Hn') as (Ha & Hb & Hd).
    rewrite vals_app. unfold keys. rewrite map_app. rewrite !in_app_iff.
    split; [auto|]. split.
    { destruct (He d DefaultLeaf) as [_ E2]; [rewrite vals_app; apply in_app_iff; auto|]. apply E2. reflexivity. }
    repeat split; auto. intros x Hx Hag. rewrite in_app_iff.
    destruct (lookup (over m (vals a)) x) as [w|] eqn:Hq.
    - right. apply H9; [eapply lookup_Some_keys; exact Hq | exact Hag].
    - left. destruct (lookup (vals a) x) as [v|] eqn:Hv.
      + apply lookup_In in Hv. rewrite (lookup_over_in m a x v Ha Hv) in Hq.
        destruct (beqb_spec v DefaultLeaf) as [Hdl|Hne]; [rewrite <- Hdl; exact Hv | discriminate].
      + apply lookup_None in Hv. rewrite keys_vals in Hv. rewrite (lookup_over_other m a x Ha Hv) in Hq.
        apply lookup_None in Hq. contradiction.
  Qed.

  Lemma over_over m a b k : NoDup (map fst (a ++ b)) -> lookup (over (over m (vals a)) (vals b)) k = lookup (over m (vals (a ++ b))) k.
  Proof.
    intros Hn. pose proof Hn as Hn'. rewrite map_app in Hn'. destruct (nodup_split _ _ Hn') as (Ha & Hb & Hd).
    rewrite !over_lookup by (rewrite keys_vals; assumption). unfold batch_effect. rewrite vals_app, lookup_app.
    destruct (lookup (vals b) k) as [v|] eqn:Hv.
    - assert (Hva : lookup (vals a) k = None).
      { apply lookup_None. rewrite keys_vals. intros Hx. apply (Hd k Hx). rewrite <- keys_vals. eapply lookup_Some_keys. exact Hv. }
      rewrite Hva. reflexivity.
    - destruct (lookup (vals a) k); reflexivity.
  Qed.

  Definition all_cover (m : kvmap) (es : list (bytes * bytes)) : Prop :=
    forall c, incl c (vals es) -> NoDup (keys c) -> forall mc, is_map mc -> overridden m c mc -> covers H G mc.

  Lemma cover_first m a b : is_map m -> NoDup (map fst (a ++ b)) -> Forall (fun k => length k = HashLength) (map fst (a ++ b)) ->
    all_cover m (a ++ b) -> covers H G (over m (vals a)).
  Proof.
    intros Hm Hn Hl Hc. rewrite map_app in Hn, Hl. destruct (nodup_split _ _ Hn) as (Ha & Hb & Hd). apply Forall_app in Hl as [La Lb].
    apply (Hc (vals a)).
    - rewrite vals_app. intros x Hx. apply in_app_iff. auto.
    - rewrite keys_vals. exact Ha.
    - apply is_map_over; assumption.
    - apply over_overridden. rewrite keys_vals. exact Ha.
  Qed.
  Lemma cover_rest m a b : is_map m -> NoDup (map fst (a ++ b)) -> all_cover m (a ++ b) -> all_cover (over m (vals a)) b.
  Proof.
    intros Hm Hn Hc c Hi Hnc mc Hmc Ho. rewrite map_app in Hn. destruct (nodup_split _ _ Hn) as (Ha & Hb & Hd).
    assert (Hcd : forall x, In x (keys c) -> ~ In x (map fst a)).
    { intros x Hx Hxa. apply (Hd x Hxa). apply in_map_iff in Hx as ([k v] & <- & Hx). apply Hi in Hx.
      rewrite <- keys_vals. eapply in_keys. exact Hx. }
    apply (Hc (vals a ++ c)).
    - rewrite vals_app. intros x Hx. apply in_app_iff in Hx. apply in_app_iff. destruct Hx as [Hx|Hx]; auto.
    - unfold keys. rewrite map_app. apply nodup_app; [rewrite <- keys_vals in Ha; exact Ha | exact Hnc|].
      intros x Hx Hxc. apply (Hcd x Hxc). rewrite <- keys_vals. exact Hx.
    - exact Hmc.
    - intros k. rewrite (Ho k). unfold batch_effect. rewrite lookup_app.
      rewrite over_lookup by (rewrite keys_vals; exact Ha). unfold batch_effect.
      destruct (lookup (vals a) k) as [v|] eqn:Hv; [|reflexivity].
      rewrite (proj2 (lookup_None c k)); [reflexivity|]. intros Hx. apply (Hcd k Hx). rewrite <- keys_vals.
      eapply lookup_Some_keys. exact Hv.
  Qed.

  Lemma sep_rest m a b : sep (keys m ++ map fst (a ++ b)) -> sep (keys (over m (vals a)) ++ map fst b).
  Proof.
    apply sep_incl. intros x Hx. rewrite map_app, !in_app_iff. apply in_app_iff in Hx as [Hx|Hx]; [|auto].
    apply over_keys_incl in Hx. rewrite keys_vals in Hx. apply in_app_iff in Hx. tauto.
  Qed.

  Lemma update_bundles_ok bs : forall m s, inv H G 0 m s ->
    NoDup (map fst (concat bs)) -> Forall (fun k => length k = HashLength) (map fst (concat bs)) ->
    effective m (vals (concat bs)) -> ~ clears_between m (vals (concat bs)) -> sep (keys m ++ map fst (concat bs)) ->
    all_cover m (concat bs) ->
    runs (update_bundles H limit (root_of H m) bs) s (fun r s' => exists m', is_map m' /\
      (forall k, lookup m' k = lookup (over m (vals (concat bs))) k) /\ r = root_of H m' /\ inv H G 0 m' s').
  Proof.
    induction bs as [|a bs IH]; intros m s Hinv Hn Hl He Hs Hsep Hc; cbn [update_bundles concat].
    - apply runs_ret. exists m. split; [apply (proj1 (proj1 Hinv))|]. split; [intros k; cbn [vals map]; rewrite over_nil_r; reflexivity|].
      split; [reflexivity | exact Hinv].
    - cbn [concat] in *. pose proof (proj1 (proj1 Hinv)) as Hm. pose proof Hn as Hn'. rewrite map_app in Hn'.
      destruct (nodup_split _ _ Hn') as (Ha & Hb & Hd).
      pose proof Hl as Hl'. rewrite map_app in Hl'. apply Forall_app in Hl' as [La Lb].
      pose proof (cover_first m a (concat bs) Hm Hn Hl Hc) as Hca.
      apply runs_bind. eapply runs_mono; [|apply (update_entries_ok m a s Hinv Ha La)].
      + cbv beta. intros r s1 (-> & Hi1).
        eapply runs_mono; [|apply (IH (over m (vals a)) s1 Hi1 Hb Lb)].
        * cbv beta. intros r s2 (m' & M1 & M2 & M3 & M4). exists m'. split; [exact M1|]. split; [|split; assumption].
          intros k. rewrite M2. apply over_over. exact Hn.
        * apply effective_rest; assumption.
        * intros Hx. apply Hs. apply clears_rest; assumption.
        * apply sep_rest. exact Hsep.
        * apply cover_rest; assumption.
      + intros k v Hi. apply He. rewrite vals_app. apply in_app_iff. auto.
      + intros Hx. apply Hs. apply clears_first; assumption.
      + eapply sep_incl; [|exact Hsep]. intros x Hx. rewrite map_app, !in_app_iff. apply in_app_iff in Hx. tauto.
      + exact Hca.
  Qed.

  (** ** UpdateSMT *)
  Lemma represents_perm m m' s : is_map m -> is_map m' -> (forall k, lookup m k = lookup m' k) -> represents H G m s -> represents H G m' s.
  Proof.
    intros Hm Hm' Hq (_ & Hs & Hc & Hst & Hl).
    assert (Hp : Permutation m m') by (apply lookup_ext_perm; [apply Hm | apply Hm' | exact Hq]).
    split; [exact Hm'|]. split; [eapply sep_perm; [apply perm_keys; exact Hp | exact Hs]|].
    split; [eapply (Gok_perm H G TrieHeight); [exact Hp | exact Hc]|]. split; [|exact Hl].
    rewrite <- (build_perm TrieHeight m m' Hp). exact Hst.
  Qed.

  Lemma dirty_vals d : dirty_batch H d = vals (map (entry_of d) (map fst (d_dirty d))).
  Proof. unfold dirty_batch, vals. rewrite !map_map. apply map_ext. intros r. reflexivity. Qed.
  Lemma fst_entries d ids : map fst (map (entry_of d) ids) = ids.
  Proof. rewrite map_map. cbn [entry_of fst]. apply map_id. Qed.
  Lemma concat_entries d bs : concat (map (map (entry_of d)) bs) = map (entry_of d) (concat bs).
  Proof. symmetry. apply concat_map. Qed.
  Lemma vals_perm a b : Permutation a b -> Permutation (vals a) (vals b).
  Proof. apply Permutation_map. Qed.

  Lemma inv_new m k : represents H G m (new_trie k) -> inv H G 0 m (new_trie k).
  Proof. intros Hr. split; [exact Hr|]. split; [split; reflexivity | intros _ x Hx; discriminate]. Qed.

  Lemma reopened m s root : inv H G 0 m s -> represents H G m (new_trie (mk_disk (store s) root)).
  Proof.
    intros Hi. destruct (reopen_inv H G m s Hi) as (u & s' & Hq & Hi'). unfold reopen in Hq. injection Hq as <- <-. apply Hi'.
  Qed.

  Lemma legal_parts m d m' bs : is_map m -> legal_update H G m d m' -> Permutation (concat bs) (map fst (d_dirty d)) ->
    let es := concat (map (map (entry_of d)) bs) in
    NoDup (map fst es) /\ Forall (fun k => length k = HashLength) (map fst es) /\
    effective m (vals es) /\ ~ clears_between m (vals es) /\ sep (keys m ++ map fst es) /\ all_cover m es /\
    forall k, lookup m' k = lookup (over m (vals es)) k.
  Proof.
    intros Hm (L1 & L2 & L3 & L4 & L5 & L6 & L7 & L8 & _) Hp. cbv zeta. rewrite concat_entries, fst_entries.
    rewrite dirty_vals in *. rewrite keys_vals, fst_entries in *.
    pose proof (vals_perm _ _ (Permutation_map (entry_of d) Hp)) as Hpv. pose proof (Permutation_sym Hpv) as Hpv'.
    assert (Hn : NoDup (concat bs)) by (eapply Permutation_NoDup; [apply Permutation_sym; exact Hp | exact L1]).
    split; [exact Hn|]. split; [eapply Permutation_Forall; [apply Permutation_sym; exact Hp | exact L2]|].
    split; [eapply effective_perm; eauto|]. split.
    { intros (n & dd & k1 & k2 & H1 & H2 & H3 & H4 & H5 & H6 & H7 & H8 & H9). apply L4. exists n, dd, k1, k2.
      pose proof (perm_keys _ _ Hpv) as Hk.
      repeat split; auto; try (eapply Permutation_in; [|eassumption]; assumption).
      intros x Hx Ha. eapply Permutation_in; [exact Hpv | apply H9; assumption]. }
    split; [eapply sep_perm; [|exact L5]; apply Permutation_app_head; apply Permutation_sym; exact Hp|].
    split. { intros c Hi. apply L6. intros x Hx. eapply Permutation_in; [exact Hpv | apply Hi; exact Hx]. }
    intros k. rewrite (L8 k). rewrite over_lookup by (rewrite keys_vals, fst_entries; exact Hn).
    unfold batch_effect. rewrite (perm_lookup (vals (map (entry_of d) (concat bs))) (vals (map (entry_of d) (map fst (d_dirty d)))));
      [reflexivity | rewrite keys_vals, fst_entries; exact Hn | exact Hpv].
  Qed.

  Lemma root_nonempty m : top H G m -> m <> [] -> exists y ys, root_of H m = y :: ys.
  Proof.
    intros Ht Hne. destruct (root_of H m) as [|y ys] eqn:Hq; [|eauto]. exfalso. unfold root_of in Hq.
    destruct Ht as (Hd & Hn & _). destruct (build TrieHeight m) eqn:Hb.
    - apply Hne. eapply build_E; [exact Hd | exact Hn | exact Hb].
    - pose proof (hash_length H Hlen TrieHeight (L k v)) as Hx. rewrite Hq in Hx. specialize (Hx ltac:(discriminate)). discriminate.
    - pose proof (hash_length H Hlen TrieHeight (N t1 t2)) as Hx. rewrite Hq in Hx. specialize (Hx ltac:(discriminate)). discriminate.
  Qed.

  Theorem update_smt_ok max d k m m' : 0 < max -> on_disk m k -> legal_update H G m d m' ->
    exists k', update_smt H limit max d k = (Ok tt, k') /\ on_disk m' k' /\ k_root k' = Some (root_of H m').
  Proof.
    intros Hmax [Hr Hroot] Hleg. pose proof (proj1 Hr) as Hm. pose proof Hleg as (_ & _ & _ & _ & _ & _ & Hm' & _ & Hne).
    unfold update_smt. destruct (smt_bundles_ok d max Hmax) as (bs & Hbs & Hp & _).
    destruct (legal_parts m d m' bs Hm Hleg Hp) as (P1 & P2 & P3 & P4 & P5 & P6 & P7).
    destruct (d_dirty d) as [|r0 rs] eqn:Hdirty.
    - exists k. assert (Hq : forall x, lookup m x = lookup m' x).
      { intros x. rewrite P7. apply Permutation_sym, Permutation_nil in Hp. rewrite concat_entries, Hp. cbn [map vals].
        rewrite over_nil_r. reflexivity. }
      assert (Hrr : root_of H m = root_of H m') by (apply content_root; assumption).
      assert (Hr' : represents H G m' (new_trie k)) by (apply (represents_perm m m' _ Hm Hm' Hq Hr)).
      split; [reflexivity|]. split; [split; [exact Hr' | congruence]|].
      destruct (root_nonempty m' (represents_top H G m' _ Hr') Hne) as (y & ys & Hy).
      unfold load_root in Hroot. destruct (k_root k) as [r|]; [|congruence]. f_equal. congruence.
    - rewrite Hbs. rewrite Hroot.
      destruct (update_bundles_ok _ m (new_trie k) (inv_new m k Hr) P1 P2 P3 P4 P5 P6) as (r & s & Hrun & mx & M1 & M2 & -> & M4).
      rewrite Hrun. assert (Hq : forall x, lookup mx x = lookup m' x) by (intros x; rewrite M2, P7; reflexivity).
      assert (Hrr : root_of H mx = root_of H m') by (apply content_root; assumption).
      assert (Hrep : forall root, represents H G m' (new_trie (mk_disk (store s) root))).
      { intros root. eapply represents_perm; [| |exact Hq|apply (reopened mx s root M4)]; assumption. }
      destruct (root_nonempty m' (represents_top H G m' _ (Hrep None)) Hne) as (y & ys & Hy).
      rewrite Hrr, Hy. exists (mk_disk (store s) (Some (y :: ys))). split; [reflexivity|]. rewrite <- Hy.
      split; [split; [apply Hrep | reflexivity] | reflexivity].
  Qed.

  (** ** A run killed after its first statement *)
  Lemma written_stored m s s1 root :
    represents H G m s -> updated s = (fun _ => None) -> store s1 = store s -> live_ok H G s1 ->
    represents H G m (new_trie (mk_disk (written s1) root)).
  Proof.
    intros Hr Hu Hs Hl. pose proof (top_good H G m (represents_top H G m s Hr)) as Hg.
    destruct Hr as (Hm & Hsep & Hc & Hst & _). split; [exact Hm|]. split; [exact Hsep|]. split; [exact Hc|].
    split; [|apply live_none; reflexivity].
    assert (Hhas : forall t h, good H G h t -> t <> E -> h mod 4 = 0 -> has H s h t -> has H (new_trie (mk_disk (written s1) root)) h t).
    { intros t h Hgt Hne Hmod (b & Hp & Hb). unfold has, pend, new_trie. cbn [updated store k_tree]. unfold written. rewrite Hs.
      destruct (updated s1 (hash_of H h t)) as [b1|] eqn:Hq.
      - pose proof (Hl _ b1 (or_intror Hq) h t Hgt Hne Hmod eq_refl) as Hb1. exists b1. split; [|exact Hb1].
        destruct (serialize_nonempty b1 (proj1 Hb1)) as (y & v & Hy). rewrite Hy. rewrite <- Hy. f_equal. apply parse_serialize.
        eapply (batch_ok_wf H Hlen); [apply Hgt | exact Hb1].
      - unfold pend in Hp. rewrite Hu in Hp. exists b. split; [exact Hp | exact Hb]. }
    revert Hst Hg. generalize (build TrieHeight m) as t. intros t. generalize TrieHeight as h. intros h. revert h.
    induction t as [|k v|l IHl r IHr]; intros h Hst Hg; cbn [stored] in *; [exact I| |].
    - intros Hmod. apply Hhas; auto. discriminate.
    - destruct Hst as (H1 & H2 & H3). destruct (good_N H G _ _ _ Hg) as [Gl Gr].
      split; [intros Hmod; apply Hhas; auto; discriminate|]. split; auto.
  Qed.

  Lemma killed_ok max d k m m' k' : 0 < max -> on_disk m k -> legal_update H G m d m' ->
    nth_error (smt_disks H limit max d k) 1 = Some k' -> on_disk m k'.
  Proof.
    intros Hmax [Hr Hroot] Hleg Hk. pose proof (proj1 Hr) as Hm.
    unfold smt_disks in Hk. destruct (smt_bundles_ok d max Hmax) as (bs & Hbs & Hp & _).
    destruct (legal_parts m d m' bs Hm Hleg Hp) as (P1 & P2 & P3 & P4 & P5 & P6 & P7).
    destruct (d_dirty d) as [|r0 rs] eqn:Hdirty; [discriminate|]. rewrite Hbs in Hk. cbn [nth_error] in Hk.
    destruct bs as [|b bs]. { apply Permutation_nil in Hp. discriminate. }
    cbn [map bundle_disks concat] in *. set (a := map (entry_of d) b) in *. set (rest := concat (map (map (entry_of d)) bs)) in *.
    pose proof P1 as Hn'. rewrite map_app in Hn'. destruct (nodup_split _ _ Hn') as (Ha & Hb & Hd).
    pose proof P2 as Hl'. rewrite map_app in Hl'. apply Forall_app in Hl' as [La Lb].
    destruct (input_legal m a Hm Ha La) as (B1 & B2 & B3 & B4 & B5 & B6 & B7).
    { intros x v Hi. apply P3. rewrite vals_app. apply in_app_iff. auto. }
    { intros Hx. apply P4. apply clears_first; assumption. }
    { eapply sep_incl; [|exact P5]. intros x Hx. rewrite map_app, !in_app_iff. apply in_app_iff in Hx. tauto. }
    { apply (cover_first m a rest Hm P1 P2 P6). }
    destruct (update_inv H Hlen limit G Hcf Hnz 0 m (new_trie k) (smt_input H a) _ false (inv_new m k Hr) B1 B2 B3 B4 B5 B6 B7)
      as (r & s1 & Hrun & -> & Hi1 & Hst).
    rewrite Hroot, Hrun in Hk. cbn [nth_error] in Hk. injection Hk as <-.
    split; [|exact Hroot]. eapply written_stored; [exact Hr | reflexivity | exact Hst | apply Hi1].
  Qed.

  Lemma reach_on_disk m k : reach H limit G m k -> on_disk m k.
  Proof.
    induction 1 as [|m k d max m' Hre IH Hl Hm|m k d max m' k' Hre IH Hl Hm Hk].
    - split; [|reflexivity]. apply (inv_fresh H G). apply covers_nil.
    - destruct (update_smt_ok max d k m m' Hm IH Hl) as (k' & Hq & Hd & _). rewrite Hq. exact Hd.
    - eapply killed_ok; eauto.
  Qed.

  Lemma on_disk_reads m k : on_disk m k -> reads H limit m k.
  Proof.
    intros [Hr Hq]. split; [exact Hq|]. intros key. rewrite Hq.
    destruct (get_represented H Hlen limit G Hcf m (new_trie k) key Hr) as (v & s & Hrun & -> & _). rewrite Hrun. reflexivity.
  Qed.

  (** ** The theorems in terms of reachable tables *)
  Theorem reach_update_smt max d k m m' : 0 < max -> reach H limit G m k -> legal_update H G m d m' ->
    exists k', update_smt H limit max d k = (Ok tt, k') /\ reads H limit m' k' /\ k_root k' = Some (root_of H m').
  Proof.
    intros Hm Hr Hl. destruct (update_smt_ok max d k m m' Hm (reach_on_disk m k Hr) Hl) as (k' & Hq & Hd & Hroot).
    exists k'. split; [exact Hq|]. split; [apply on_disk_reads; exact Hd | exact Hroot].
  Qed.
  Theorem reach_reads m k : reach H limit G m k -> reads H limit m k.
  Proof. intros Hr. apply on_disk_reads, reach_on_disk, Hr. Qed.

  Lemma lookup_dirty d m' m id : legal_update H G m d m' -> In id (map fst (d_dirty d)) -> synced H d m' id.
  Proof.
    intros (L1 & _ & _ & _ & _ & _ & _ & L8 & _) Hi. unfold synced. rewrite (L8 id). unfold batch_effect.
    rewrite (In_lookup (dirty_batch H d) id (smt_value H (snd (entry_of d id)))); [|exact L1|].
    - destruct (snd (entry_of d id)) as [|y p] eqn:Hp; cbn [smt_value]; [rewrite beqb_refl; reflexivity|].
      destruct (beqb_spec (H (y :: p)) DefaultLeaf) as [Hq|Hq]; [|reflexivity].
      exfalso. apply default_len. rewrite <- Hq. apply Hlen.
    - apply in_map_iff in Hi as (r & <- & Hi). unfold dirty_batch. apply in_map_iff. exists r. auto.
  Qed.

  Theorem all_synced d m m' : legal_update H G m d m' ->
    (forall id, ~ In id (map fst (d_dirty d)) -> synced H d m id) -> forall id, synced H d m' id.
  Proof.
    intros Hl Hs id. destruct (mem id (map fst (d_dirty d))) eqn:Hi; [apply mem_In in Hi; eapply lookup_dirty; eauto | apply mem_not_In in Hi].
    unfold synced in *. rewrite <- (Hs id Hi). destruct Hl as (_ & _ & _ & _ & _ & _ & _ & L8 & _). rewrite (L8 id).
    unfold batch_effect. rewrite (proj2 (lookup_None (dirty_batch H d) id)); [reflexivity|].
    intros Hx. apply Hi. unfold keys, dirty_batch in Hx. rewrite map_map in Hx. exact Hx.
  Qed.

  Theorem client_after_update max d k m m' rlimit name : 0 < max -> reach H limit G m k -> legal_update H G m d m' ->
    (forall id, ~ In id (map fst (d_dirty d)) -> synced H d m id) ->
    exists k' r, update_smt H limit max d k = (Ok tt, k') /\ respond H d k' rlimit name = Ok r /\
      match snd (entry_of d (H name)) with
      | [] => verify_proof_by_domain H r = Ok (PoA, true)
      | p => entry r = Some (mk_entry name (H name) (H p)) /\ verify_proof_by_domain H r = Ok (PoP, true)
      end.
  Proof.
    intros Hm Hr Hl Hs. pose proof (all_synced d m m' Hl Hs (H name)) as Hsy.
    destruct (update_smt_ok max d k m m' Hm (reach_on_disk m k Hr) Hl) as (k' & Hq & [Hd Hroot] & _).
    exists k'. unfold respond. rewrite Hroot. unfold synced in Hsy.
    destruct (client_honest H Hlen rlimit G Hcf (fun id => H (snd (entry_of d id))) m' (new_trie k') name Hd) as (r & s & Hrun & Hv & _).
    { intros v Hv. rewrite Hv in Hsy. destruct (snd (entry_of d (H name))); congruence. }
    exists r. split; [exact Hq|]. rewrite Hrun. split; [reflexivity|]. rewrite Hsy in Hv.
    destruct (snd (entry_of d (H name))); exact Hv.
  Qed.
End SmtProofs.
