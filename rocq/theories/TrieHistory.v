(** The trie in use: an invariant over updates, commits and reopening, and what reads return. *)
From Coq Require Import Permutation.
From Verif Require Import Base TrieModel TrieSpec BaseLemmas TrieMaps TrieHash TrieStore TrieBatch TrieUpdate TrieCodec TrieRead TrieSound.

Section History.
  Variable H : bytes -> bytes.
  Hypothesis Hlen : forall x, length (H x) = HashLength.
  Variable limit : nat.
  Variable G : bytes -> Prop.
  Hypothesis Hcf : collision_free H G.
  Hypothesis Hnz : forall x, G x -> H x <> zero_hash.

  Notation history := (history H G).
  Notation covers := (covers H G).

  (** The tree of [m] can be read, also without the live cache. *)
  Definition represents (m : kvmap) (s : cdb) : Prop :=
    is_map m /\ sep (keys m) /\ covers m /\ stored H s TrieHeight (build TrieHeight m) /\ live_ok H G s.

  Definition inv (n : nat) (m : kvmap) (s : cdb) : Prop :=
    represents m s /\
    (n = 0 -> updated s = (fun _ => None) /\ removed s = (fun _ => false)) /\
    (n <= 1 -> forall x, removed s x = true -> ~ In x (nodes H TrieHeight (build TrieHeight m))).

  Lemma inv_fresh : covers [] -> inv 0 [] fresh.
  Proof.
    intros Hc. split; [|split; [intros _; split; reflexivity | intros _ x Hx; discriminate]].
    split; [split; constructor|]. split; [intros ? ? []|]. split; [exact Hc|]. split; [exact I|].
    intros x b [Hx|Hx]; discriminate.
  Qed.

  Lemma is_map_lens m : is_map m -> lens (keys m).
  Proof.
    intros [_ Hf] a Ha. apply in_map_iff in Ha as ([k v] & <- & Hi). rewrite Forall_forall in Hf.
    apply (Hf _ Hi).
  Qed.
  Lemma is_map_vals m : is_map m -> vals_ok m.
  Proof. intros [_ Hf] k v Hi. rewrite Forall_forall in Hf. apply (Hf _ Hi). Qed.
  Lemma is_batch_lens m : is_batch m -> lens (keys m).
  Proof.
    intros [_ Hf] a Ha. apply in_map_iff in Ha as ([k v] & <- & Hi). rewrite Forall_forall in Hf.
    apply (Hf _ Hi).
  Qed.
  Lemma is_batch_vals m : is_batch m -> batch_vals m.
  Proof. intros [_ Hf] k v Hi. rewrite Forall_forall in Hf. apply (Hf _ Hi). Qed.

  Lemma dom_top ks : lens ks -> sep ks -> dom TrieHeight ks.
  Proof.
    intros Hl Hs. split; [rewrite TH; lia|]. split; [|auto]. rewrite Nat.sub_diag. intros a b _ _ i Hi. lia.
  Qed.

  Lemma represents_top m s : represents m s -> top H G m.
  Proof.
    intros (Hm & Hs & Hc & _). split; [apply dom_top; [apply is_map_lens; exact Hm | exact Hs]|].
    split; [apply Hm|]. split; [apply is_map_vals; exact Hm | apply Hc].
  Qed.
  Lemma represents_readable m s : represents m s -> readable H G TrieHeight m.
  Proof.
    intros Hr. pose proof (represents_top _ _ Hr) as Ht. pose proof (top_good H G m Ht) as Hg.
    destruct Ht as (Hd & Hn & _). split; [exact Hd|]. split; [exact Hn | exact Hg].
  Qed.

  Lemma mod_top : TrieHeight mod 4 = 0.
  Proof. reflexivity. Qed.
  Lemma placed_top t b i : placed H TrieHeight t b i.
  Proof. intros Hq. rewrite mod_top in Hq. congruence. Qed.

  (** ** Update *)
  Lemma overridden_perm m b m' : NoDup (keys m) -> is_batch b -> NoDup (keys m') -> overridden m b m' ->
    Permutation (over m b) m'.
  Proof.
    intros Hn [Hi _] Hn' Ho. pose proof (increasing_NoDup _ Hi) as Hnb.
    apply lookup_ext_perm; [apply over_NoDup; assumption | exact Hn'|].
    intros k. rewrite (over_overridden m b Hnb k). symmetry. apply Ho.
  Qed.

  Lemma inputs_top n m s b m' : inv n m s -> is_batch b -> effective m b -> ~ straddled m b ->
    sep (keys m ++ keys b) -> is_map m' -> overridden m b m' -> covers m' ->
    inputs H G TrieHeight m b.
  Proof.
    intros ((Hm & Hs & Hc & _) & _) Hb He Hst Hsep Hm' Ho Hc'.
    assert (Hp : Permutation (over m b) m') by (apply overridden_perm; auto; [apply Hm | apply Hm']).
    split. { apply dom_top; [|exact Hsep]. intros a Ha. apply in_app_iff in Ha as [Ha|Ha].
      - apply (is_map_lens m); assumption.
      - apply (is_batch_lens b); assumption. }
    split; [apply Hm|]. split; [apply Hb|]. split; [apply is_map_vals; exact Hm|].
    split; [apply is_batch_vals; exact Hb|]. split; [exact He|]. split; [exact Hst|].
    split; [exact Hc|]. eapply Gok_perm; [apply Permutation_sym; exact Hp|]. exact Hc'.
  Qed.

  Lemma update_inv n m s b m' atomic : inv n m s -> is_batch b -> effective m b -> ~ straddled m b ->
    sep (keys m ++ keys b) -> is_map m' -> overridden m b m' -> covers m' ->
    runs (trie_update H limit atomic (root_of H m) b) s (fun r s' => r = root_of H m' /\ inv (S n) m' s' /\ store s' = store s).
  Proof.
    intros Hinv Hb He Hst Hsep Hm' Ho Hc'. pose proof (inputs_top _ _ _ _ _ Hinv Hb He Hst Hsep Hm' Ho Hc') as Hin.
    destruct Hinv as ((Hm & Hs & Hc & Hsto & Hlv) & Hn0 & Hn1).
    assert (Hp : Permutation (over m b) m') by (apply overridden_perm; auto; [apply Hm | apply Hm']).
    assert (Hbu : build TrieHeight (over m b) = build TrieHeight m') by (apply build_perm; exact Hp).
    assert (Hsep' : sep (keys m')).
    { eapply sep_incl; [|exact Hsep]. intros k Hk. apply over_keys_incl.
      eapply Permutation_in; [apply Permutation_map; apply Permutation_sym; exact Hp | exact Hk]. }
    destruct b as [|kv0 b0] eqn:Eb.
    - assert (Hp2 : Permutation m m').
      { apply lookup_ext_perm; [apply Hm | apply Hm'|]. intros k. symmetry. apply Ho. }
      assert (Hbu2 : build TrieHeight m = build TrieHeight m') by (apply build_perm; exact Hp2).
      apply runs_ret. unfold root_of. rewrite Hbu2 in *. split; [reflexivity|]. split; [|reflexivity].
      split; [|split; [discriminate|]].
      + split; [exact Hm'|]. auto.
      + intros Hn. apply Hn1. lia.
    - rewrite <- Eb in *.
      assert (Hnb : b <> []) by (rewrite Eb; discriminate).
      pose proof (update_ok H Hlen limit atomic G Hcf Hnz TrieHeight (root_of H m) m b [] 0 s Hin Hnb
                  (or_intror eq_refl) (placed_top _ _ _) Hsto Hlv) as Hu.
      assert (Hgo : trie_update H limit atomic (root_of H m) b =
                    ('(node, _, _) <- update H limit atomic TrieHeight (root_of H m) b [] 0 ;;
                     ret (firstn HashLength node))).
      { rewrite Eb. reflexivity. }
      rewrite Hgo. apply runs_bind. eapply runs_mono; [|exact Hu]. cbv beta.
      intros [[nd d] b'] s' (-> & _ & _ & _ & _ & Hst' & Hlv' & Hfr & Hrem). apply runs_ret.
      rewrite Hbu in *. rewrite (node_firstn H Hlen). split; [reflexivity|]. split; [|apply Hfr].
      split; [split; [exact Hm'|]; auto|]. split; [discriminate|]. intros Hn x Hx.
      destruct (Hrem x Hx) as [Hr0|Hg0]; [|apply Hg0].
      destruct (Hn0 ltac:(lia)) as [_ Hr]. rewrite Hr in Hr0. discriminate.
  Qed.

  (** ** Commit *)
  Lemma commit_pend s x b : pend s x = Some b -> removed s x = false -> length b = 31 -> wf_batch b ->
    exists y v, (match updated s x with Some b => Some (serialize_batch b) | None => store s x end) = Some (y :: v) /\
                parse_batch (y :: v) = b.
  Proof.
    unfold pend. intros Hp Hr Hl Hw. destruct (updated s x) as [b1|].
    - injection Hp as ->. destruct (serialize_nonempty b Hl) as (y & v & Hq). exists y, v.
      rewrite <- Hq. split; [reflexivity|]. apply parse_serialize. exact Hw.
    - destruct (store s x) as [[|y v]|]; try discriminate. injection Hp as <-. eauto.
  Qed.

  Lemma commit_stored s s' h t : wf h t -> (forall x, In x (nodes H h t) -> removed s x = false) ->
    updated s' = (fun _ => None) ->
    store s' = (fun k => if removed s k then None
                         else match updated s k with Some b => Some (serialize_batch b) | None => store s k end) ->
    stored H s h t -> stored H s' h t.
  Proof.
    intros Hw Hr Hu Hs.
    assert (Hhas : forall h2 t2, wf h2 t2 -> removed s (hash_of H h2 t2) = false -> has H s h2 t2 -> has H s' h2 t2).
    { intros h2 t2 Hw2 Hr2 (b & Hp & Hb). exists b. split; [|exact Hb].
      destruct (commit_pend s (hash_of H h2 t2) b Hp Hr2 (proj1 Hb) (batch_ok_wf H Hlen b h2 t2 Hw2 Hb)) as (y & v & Hq & Hpa).
      unfold pend. rewrite Hu, Hs. cbv beta. rewrite Hr2, Hq. f_equal. exact Hpa. }
    revert h Hw Hr. induction t as [|k v|l IHl r IHr]; intros h Hw Hr; cbn [stored]; [auto| |].
    - intros Hst Hm. apply Hhas; auto. apply Hr. cbn [nodes]. rewrite Hm. simpl. auto.
    - intros (Hst & Hl & Hrr). destruct Hw as (Hh & Hor & Hwl & Hwr). split; [|split].
      + intros Hm. apply Hhas; auto. { split; auto. }
        apply Hr. cbn [nodes]. rewrite Hm. simpl. auto.
      + apply IHl; auto. intros x Hx. apply Hr. cbn [nodes]. rewrite !in_app_iff. auto.
      + apply IHr; auto. intros x Hx. apply Hr. cbn [nodes]. rewrite !in_app_iff. auto.
  Qed.

  Lemma commit_inv n m s : n <= 1 -> inv n m s -> runs commit s (fun _ s' => inv 0 m s').
  Proof.
    intros Hn (Hrep & Hn0 & Hn1). pose proof (represents_top _ _ Hrep) as Ht.
    destruct Hrep as (Hm & Hs & Hc & Hsto & Hlv).
    eexists. eexists. split; [reflexivity|]. split; [|split].
    - split; [exact Hm|]. split; [exact Hs|]. split; [exact Hc|].
      split; [|intros x b [Hx|Hx]; [eapply Hlv; left; exact Hx | discriminate]].
      eapply (commit_stored s); [apply (top_good H G m Ht)| |reflexivity|reflexivity|exact Hsto].
      intros x Hx. destruct (removed s x) eqn:Hr; [|reflexivity]. exfalso. apply (Hn1 Hn x Hr Hx).
    - intros _. split; reflexivity.
    - intros _ x Hx. discriminate.
  Qed.

  Lemma live_none s : live s = (fun _ => None) -> updated s = (fun _ => None) -> live_ok H G s.
  Proof. intros Hq Hu x b [Hx|Hx]; [rewrite Hq in Hx | rewrite Hu in Hx]; discriminate. Qed.

  Lemma reset_inv n m s : inv n m s -> runs reset_live_cache s (fun _ s' => inv n m s').
  Proof.
    intros ((Hm & Hs & Hc & Hsto & Hlv) & Hn0 & Hn1). eexists. eexists. split; [reflexivity|].
    split; [|split; [exact Hn0 | exact Hn1]]. split; [exact Hm|]. split; [exact Hs|]. split; [exact Hc|].
    split; [|intros x b [Hx|Hx]; [discriminate | eapply Hlv; right; exact Hx]]. eapply stored_frame; [|exact Hsto]. reflexivity.
  Qed.
  Lemma reopen_inv m s : inv 0 m s -> runs reopen s (fun _ s' => inv 0 m s').
  Proof.
    intros ((Hm & Hs & Hc & Hsto & Hlv) & Hn0 & Hn1). eexists. eexists. split; [reflexivity|].
    split; [|split; [split; reflexivity | intros _ x Hx; discriminate]].
    split; [exact Hm|]. split; [exact Hs|]. split; [exact Hc|].
    split; [|apply live_none; reflexivity]. eapply stored_frame; [|exact Hsto].
    intros x _. destruct (Hn0 eq_refl) as [Hu _]. unfold pend. rewrite Hu. reflexivity.
  Qed.

  (** ** Reads *)
  Lemma get_represented m s key : represents m s ->
    runs (trie_get limit (root_of H m) key) s (fun v s' =>
      v = match lookup m key with Some v => v | None => [] end /\ represents m s' /\ same_store s s').
  Proof.
    intros Hr. pose proof (represents_readable _ _ Hr) as Hrd. destruct Hr as (Hm & Hs & Hc & Hsto & Hlv).
    eapply runs_mono; [|apply (get_ok H Hlen limit G Hcf TrieHeight m key (root_of H m) [] 0 s Hrd
      (or_intror eq_refl) (placed_top _ _ _) Hsto Hlv)]. cbv beta.
    intros v s' (Hv & Hlv' & Hss). split; [exact Hv|]. split; [|exact Hss]. split; [exact Hm|]. split; [exact Hs|]. split; [exact Hc|].
    split; [|exact Hlv']. eapply stored_same; eauto.
  Qed.

  Lemma same_prefix_agree key pk n : forall b, length key = HashLength -> length pk = HashLength ->
    b + n <= TrieHeight -> (forall j, b <= j < b + n -> bit key j = bit pk j) -> same_prefix key pk b n = Some true.
  Proof.
    induction n as [|n IH]; intros b Hk Hp Hb Ha; [reflexivity|]. cbn [same_prefix].
    rewrite !bit_is_set_some by (rewrite ?Hk, ?Hp, HL; rewrite TH in Hb; lia).
    rewrite (Ha b) by lia. rewrite eqb_reflx. apply IH; auto; [lia|]. intros j Hj. apply Ha. lia.
  Qed.

  Definition good_proof (m : kvmap) (key : bytes) (r : list bytes * bool * bytes * bytes) : Prop :=
    let '(ap, inc, pk, pv) := r in
    length ap < TrieHeight /\ legal_path ap /\
    match lookup m key with
    | Some v => inc = true /\ pk = [] /\ pv = v /\ verify_inclusion H (root_of H m) ap key v = Some true
    | None => inc = false /\ (pk = [] \/ pk <> key /\ lookup m pk = Some pv) /\
              verify_non_inclusion H (go_root (root_of H m)) ap key pv pk = Some true
    end.

  Lemma proof_good m key r : top H G m -> length key = HashLength ->
    proof_ok H TrieHeight m key r -> good_proof m key r.
  Proof.
    intros Htop Hk. destruct r as [[[ap inc] pk] pv]. intros (Hl & Hf & Hm). split; [exact Hl|]. split; [exact Hf|].
    cbv zeta in Hm. rewrite Nat.sub_diag in Hm.
    assert (Hleaf : forall k v, leaf_string k v (TrieHeight - length ap) = k ++ v ++ [depth_byte (length ap)]).
    { intros k v. unfold leaf_string. rewrite depth_byte_eq by exact Hl. reflexivity. }
    assert (Hincl : forall k v, verify_path H ap 0 (length ap) k (H (leaf_string k v (TrieHeight - length ap))) =
                     Some (hash_of H TrieHeight (build TrieHeight m)) ->
                     verify_inclusion H (root_of H m) ap k v = Some true).
    { intros k v Hv. rewrite Hleaf in Hv. unfold verify_inclusion. rewrite Hv. unfold root_of. rewrite beqb_refl. reflexivity. }
    destruct (lookup m key) as [v|] eqn:Hlk.
    - destruct Hm as (-> & -> & -> & Hv). auto.
    - destruct Hm as (-> & Hm). split; [reflexivity|].
      pose proof Htop as (Hd & Hn & Hvo & _).
      destruct Hm as [(-> & -> & Hv)|(Hin & Ha & Hv)].
      + split; [auto|]. unfold go_root, root_of.
        destruct (hash_of H TrieHeight (build TrieHeight m)) as [|y ys] eqn:Hq; [reflexivity|].
        cbn [verify_non_inclusion]. rewrite Hv. cbn [dflt]. rewrite beqb_refl. reflexivity.
      + pose proof (in_keys _ _ _ Hin) as Hpk. destruct Hd as (_ & _ & _ & Hle). pose proof (Hle pk Hpk) as Hpl.
        assert (Hpn : pk <> key).
        { intros ->. apply lookup_None in Hlk. contradiction. }
        split; [right; split; [exact Hpn | apply In_lookup; assumption]|].
        pose proof (Hincl pk pv Hv) as Hvi.
        unfold go_root. destruct (root_of H m) as [|y ys] eqn:Hq; [reflexivity|].
        destruct pk as [|p0 pk'] eqn:Epk; [rewrite HL in Hpl; discriminate|].
        cbn [verify_non_inclusion]. rewrite <- Epk in *. rewrite Hvi.
        apply same_prefix_agree; auto. lia.
  Qed.

  Lemma merkle_represented m s key : represents m s -> length key = HashLength ->
    runs (trie_merkle_proof limit (root_of H m) key) s (fun r s' => good_proof m key r /\ represents m s' /\ same_store s s').
  Proof.
    intros Hr Hk. pose proof (represents_readable _ _ Hr) as Hrd. pose proof (represents_top _ _ Hr) as Htop.
    destruct Hr as (Hm & Hs & Hc & Hsto & Hlv).
    eapply runs_mono; [|apply (merkle_ok H Hlen limit G Hcf TrieHeight m key (root_of H m) [] 0 s Hrd Hk
      (or_intror eq_refl) (placed_top _ _ _) Hsto Hlv)]. cbv beta.
    intros r s' (Hv & Hlv' & Hss). split; [apply proof_good; assumption|]. split; [|exact Hss]. split; [exact Hm|]. split; [exact Hs|]. split; [exact Hc|].
    split; [|exact Hlv']. eapply stored_same; eauto.
  Qed.

  Lemma read_inv n m s s' : inv n m s -> represents m s' -> same_store s s' -> inv n m s'.
  Proof.
    intros (_ & Hn0 & Hn1) Hr (Hu & Hrm & Hs). split; [exact Hr|]. rewrite Hu, Hrm. split; [exact Hn0 | exact Hn1].
  Qed.

  Theorem history_inv n m ops m' : history n m ops m' -> forall s, inv n m s ->
    runs (run_ops H limit ops (root_of H m)) s (fun r s' => r = root_of H m' /\ exists n', inv n' m' s').
  Proof.
    induction 1 as [n m|n m atomic b m' ops m'' Hb He Hst Hsep Hm' Ho Hc' Hh IH|n m ops m' Hn Hh IH|n m ops m' Hh IH|m ops m' Hh IH|n m key ops m' Hh IH|n m key ops m' Hk Hh IH];
    intros s Hinv; cbn [run_ops run_op].
    - apply runs_ret. eauto.
    - apply runs_bind. eapply runs_mono; [|eapply update_inv; eauto]. cbv beta. intros r s' (-> & Hi & _). apply IH. exact Hi.
    - apply runs_bind. apply runs_bind. eapply runs_mono; [|apply (commit_inv n); eauto]. cbv beta. intros _ s' Hi.
      apply runs_ret. apply IH. exact Hi.
    - apply runs_bind. apply runs_bind. eapply runs_mono; [|apply (reset_inv n m); exact Hinv]. cbv beta. intros _ s' Hi.
      apply runs_ret. apply IH. exact Hi.
    - apply runs_bind. apply runs_bind. eapply runs_mono; [|apply (reopen_inv m); exact Hinv]. cbv beta. intros _ s' Hi.
      apply runs_ret. apply IH. exact Hi.
    - apply runs_bind. apply runs_bind. eapply runs_mono; [|apply (get_represented m s key), (proj1 Hinv)].
      cbv beta. intros v s' (_ & Hr & Hss). apply runs_ret. apply IH. eapply read_inv; eauto.
    - apply runs_bind. apply runs_bind. eapply runs_mono; [|apply (merkle_represented m s key); [apply (proj1 Hinv) | exact Hk]].
      cbv beta. intros v s' (_ & Hr & Hss). apply runs_ret. apply IH. eapply read_inv; eauto.
  Qed.

  (** ** From a new trie *)
  Lemma run_history ops m : covers [] -> history 0 [] ops m ->
    exists s, run_ops H limit ops [] fresh = (Ok (root_of H m), s) /\ represents m s.
  Proof.
    intros Hc Hh. destruct (history_inv _ _ _ _ Hh fresh (inv_fresh Hc)) as (r & s & Hr & -> & n & Hi).
    exists s. split; [exact Hr | apply Hi].
  Qed.
  Lemma covers_nil : covers [].
  Proof. split; [intros s []|intros k v h []]. Qed.
End History.
