(** Lemmas about finite maps, their canonical trees, and overriding by a batch. *)
From Coq Require Import Permutation.
From Verif Require Import Base TrieModel TrieSpec BaseLemmas.

Definition mem (k : bytes) (ks : list bytes) : bool := existsb (beqb k) ks.

(** The override as a function on lists. *)
Definition over (m batch : kvmap) : kvmap :=
  filter (fun kv => negb (mem (fst kv) (keys batch))) m ++
  filter (fun kv => negb (beqb (snd kv) DefaultLeaf)) batch.

Lemma mem_In k ks : mem k ks = true <-> In k ks.
Proof.
  unfold mem. rewrite existsb_exists. split.
  - intros (x & Hx & He). apply beqb_eq in He. subst. exact Hx.
  - intros Hk. exists k. split; [exact Hk | apply beqb_refl].
Qed.
Lemma mem_not_In k ks : mem k ks = false <-> ~ In k ks.
Proof. rewrite <- mem_In. destruct (mem k ks); split; congruence. Qed.

Lemma in_keys k v m : In (k, v) m -> In k (keys m).
Proof. intros Hi. apply in_map_iff. exists (k, v). auto. Qed.

(** ** lookup *)
Lemma lookup_In m k v : lookup m k = Some v -> In (k, v) m.
Proof.
  induction m as [|[k' v'] m IH]; simpl; [discriminate|].
  destruct (beqb_spec k' k) as [->|Hne]; intros Hq; [injection Hq as ->; auto | right; auto].
Qed.
Lemma In_lookup m k v : NoDup (keys m) -> In (k, v) m -> lookup m k = Some v.
Proof.
  induction m as [|[k' v'] m IH]; simpl; intros Hn Hi; [contradiction|].
  inversion Hn as [|? ? Hni Hn' Heq]; subst. destruct Hi as [Hi|Hi].
  - injection Hi as -> ->. rewrite beqb_refl. reflexivity.
  - destruct (beqb_spec k' k) as [->|Hne]; [|apply IH; auto].
    exfalso. apply Hni. apply in_keys in Hi. exact Hi.
Qed.
Lemma lookup_None m k : lookup m k = None <-> ~ In k (keys m).
Proof.
  induction m as [|[k' v'] m IH]; simpl; [tauto|].
  destruct (beqb_spec k' k) as [->|Hne]; split; intros Hq; try discriminate; [tauto| |]; try tauto.
Qed.
Lemma lookup_Some_keys m k v : lookup m k = Some v -> In k (keys m).
Proof. intros Hq. apply lookup_In in Hq. apply in_keys in Hq. exact Hq. Qed.

Lemma lookup_app m1 m2 k : lookup (m1 ++ m2) k = match lookup m1 k with Some v => Some v | None => lookup m2 k end.
Proof. induction m1 as [|[k' v'] m IH]; simpl; [reflexivity|]. destruct (beqb k' k); auto. Qed.

Lemma lookup_filter_key (f : bytes -> bool) m k :
  lookup (filter (fun kv => f (fst kv)) m) k = if f k then lookup m k else None.
Proof.
  induction m as [|[k' v'] m IH]; simpl; [destruct (f k); reflexivity|].
  destruct (beqb_spec k' k) as [->|Hne].
  - destruct (f k) eqn:Hf; simpl; [rewrite beqb_refl; reflexivity | rewrite IH; reflexivity].
  - destruct (f k'); simpl; [destruct (beqb_spec k' k); [contradiction|]|]; exact IH.
Qed.

Lemma NoDup_keys_NoDup m : NoDup (keys m) -> NoDup m.
Proof. apply NoDup_map_inv. Qed.

Lemma NoDup_keys_filter (f : bytes * bytes -> bool) m : NoDup (keys m) -> NoDup (keys (filter f m)).
Proof.
  induction m as [|kv m IH]; simpl; intros Hn; [constructor|].
  inversion Hn as [|? ? Hni Hn' Heq]; subst. destruct (f kv); simpl; auto. constructor; auto.
  intros Hi. apply Hni. apply in_map_iff in Hi as (x & Hx & Hf). apply filter_In in Hf as [Hf _].
  apply in_map_iff. exists x. auto.
Qed.

(** Two duplicate-free lists with the same lookups are permutations of each other. *)
Lemma lookup_ext_perm m1 m2 :
  NoDup (keys m1) -> NoDup (keys m2) -> (forall k, lookup m1 k = lookup m2 k) -> Permutation m1 m2.
Proof.
  intros H1 H2 He. apply NoDup_Permutation; try (apply NoDup_keys_NoDup; assumption).
  intros [k v]. split; intros Hi.
  - apply lookup_In. rewrite <- He. apply In_lookup; assumption.
  - apply lookup_In. rewrite He. apply In_lookup; assumption.
Qed.
Lemma perm_lookup m1 m2 : NoDup (keys m1) -> Permutation m1 m2 -> forall k, lookup m1 k = lookup m2 k.
Proof.
  intros Hn Hp k.
  assert (Hn2 : NoDup (keys m2)) by (eapply Permutation_NoDup; [apply Permutation_map; exact Hp | exact Hn]).
  destruct (lookup m1 k) as [v|] eqn:Hq.
  - symmetry. apply In_lookup; auto. eapply Permutation_in; [exact Hp|]. apply lookup_In. exact Hq.
  - symmetry. apply lookup_None. apply lookup_None in Hq. intros Hi. apply Hq.
    eapply Permutation_in; [|exact Hi]. apply Permutation_map, Permutation_sym, Hp.
Qed.

(** ** over *)
Lemma over_lookup m batch k : NoDup (keys batch) ->
  lookup (over m batch) k = match batch_effect batch k with Some r => r | None => lookup m k end.
Proof.
  intros Hn. unfold over, batch_effect. rewrite lookup_app.
  rewrite (lookup_filter_key (fun x => negb (mem x (keys batch)))).
  destruct (lookup batch k) as [v|] eqn:Hb.
  - assert (Hm : mem k (keys batch) = true) by (apply mem_In; eapply lookup_Some_keys; eauto).
    rewrite Hm. simpl.
    destruct (lookup (filter (fun kv => negb (beqb (snd kv) DefaultLeaf)) batch) k) as [v'|] eqn:Hf.
    + apply lookup_In, filter_In in Hf as [Hi Hv]. simpl in Hv.
      rewrite (In_lookup _ _ _ Hn Hi) in Hb. injection Hb as <-. destruct (beqb v' DefaultLeaf); [discriminate|].
      reflexivity.
    + destruct (beqb v DefaultLeaf) eqn:Hv; [reflexivity|]. exfalso.
      apply lookup_None in Hf. apply Hf. apply (in_keys k v). apply filter_In. split.
      * apply lookup_In. exact Hb.
      * simpl. rewrite Hv. reflexivity.
  - assert (Hm : mem k (keys batch) = false) by (apply mem_not_In; apply lookup_None; exact Hb).
    rewrite Hm. simpl.
    assert (Hf : lookup (filter (fun kv => negb (beqb (snd kv) DefaultLeaf)) batch) k = None).
    { apply lookup_None. intros Hi. apply in_map_iff in Hi as ([k' v'] & Hk & Hf).
      apply filter_In in Hf as [Hf _]. simpl in Hk. subst k'. apply in_keys in Hf.
      apply lookup_None in Hb. contradiction. }
    rewrite Hf. destruct (lookup m k); reflexivity.
Qed.

Lemma over_overridden m batch : NoDup (keys batch) -> overridden m batch (over m batch).
Proof. intros Hn k. apply over_lookup. exact Hn. Qed.

Lemma over_NoDup m batch : NoDup (keys m) -> NoDup (keys batch) -> NoDup (keys (over m batch)).
Proof.
  intros H1 H2. unfold over, keys. rewrite map_app.
  assert (Hd : forall k, In k (keys (filter (fun kv => negb (mem (fst kv) (keys batch))) m)) ->
                         ~ In k (keys (filter (fun kv => negb (beqb (snd kv) DefaultLeaf)) batch))).
  { intros k Ha Hb. apply in_map_iff in Ha as ([k1 v1] & <- & Ha). apply filter_In in Ha as [_ Ha].
    apply in_map_iff in Hb as ([k2 v2] & Hk & Hb). apply filter_In in Hb as [Hb _].
    simpl in *. subst k2. apply in_keys in Hb. apply mem_In in Hb. rewrite Hb in Ha. discriminate. }
  pose proof (NoDup_keys_filter (fun kv => negb (mem (fst kv) (keys batch))) m H1) as Ha.
  pose proof (NoDup_keys_filter (fun kv => negb (beqb (snd kv) DefaultLeaf)) batch H2) as Hb.
  unfold keys in *. revert Ha Hb Hd.
  generalize (map fst (filter (fun kv => negb (mem (fst kv) (map fst batch))) m)) as l1.
  generalize (map fst (filter (fun kv => negb (beqb (snd kv) DefaultLeaf)) batch)) as l2.
  intros l2 l1. induction l1 as [|x l1 IH]; simpl; intros Ha Hb Hd; [exact Hb|].
  inversion Ha as [|? ? Hni Ha' Heq]; subst. constructor.
  - rewrite in_app_iff. intros [Hi|Hi]; [contradiction | eapply Hd; eauto].
  - apply IH; auto.
Qed.

Lemma in_over k v m batch :
  In (k, v) (over m batch) <->
  (In (k, v) m /\ ~ In k (keys batch)) \/ (In (k, v) batch /\ v <> DefaultLeaf).
Proof.
  unfold over. rewrite in_app_iff, !filter_In. simpl. rewrite !negb_true_iff, mem_not_In, beqb_neq. tauto.
Qed.

Lemma over_keys_incl m batch k : In k (keys (over m batch)) -> In k (keys m ++ keys batch).
Proof.
  intros Hi. apply in_map_iff in Hi as ([k' v] & Hk & Hi). simpl in Hk. subst k'.
  apply in_app_iff. apply in_over in Hi as [[Hi _]|[Hi _]]; apply in_keys in Hi; auto.
Qed.

Lemma over_nil batch : over [] batch = filter (fun kv => negb (beqb (snd kv) DefaultLeaf)) batch.
Proof. reflexivity. Qed.

(** ** side *)
Lemma in_side n b m k v : In (k, v) (side n b m) <-> In (k, v) m /\ bit k n = b.
Proof. unfold side. rewrite filter_In. simpl. rewrite Bool.eqb_true_iff. tauto. Qed.
Lemma in_side_keys n b m k : In k (keys (side n b m)) <-> In k (keys m) /\ bit k n = b.
Proof.
  unfold keys. rewrite !in_map_iff. split.
  - intros ([k' v] & <- & Hi). apply in_side in Hi as [Hi Hb]. split; auto. exists (k', v). auto.
  - intros [([k' v] & <- & Hi) Hb]. exists (k', v). split; auto. apply in_side. auto.
Qed.
Lemma side_NoDup n b m : NoDup (keys m) -> NoDup (keys (side n b m)).
Proof. apply NoDup_keys_filter. Qed.
Lemma side_app n b m1 m2 : side n b (m1 ++ m2) = side n b m1 ++ side n b m2.
Proof. apply filter_app. Qed.
Lemma filter_filter_comm {A} (f g : A -> bool) l : filter f (filter g l) = filter g (filter f l).
Proof.
  induction l as [|x l IH]; simpl; [reflexivity|].
  destruct (g x) eqn:Hg, (f x) eqn:Hf; simpl; rewrite ?Hg, ?Hf, IH; reflexivity.
Qed.
Lemma side_over n b m batch : side n b (over m batch) = over (side n b m) (side n b batch).
Proof.
  unfold over. rewrite side_app. f_equal.
  - unfold side at 1 2. rewrite filter_filter_comm. fold (side n b m).
    apply filter_ext_in. intros [k v] Hi. simpl. apply in_side in Hi as [_ Hb]. f_equal.
    destruct (mem k (keys batch)) eqn:H1, (mem k (keys (side n b batch))) eqn:H2; auto; exfalso.
    + apply mem_In in H1. apply mem_not_In in H2. apply H2. apply in_side_keys. auto.
    + apply mem_In in H2. apply mem_not_In in H1. apply in_side_keys in H2. tauto.
  - unfold side. apply filter_filter_comm.
Qed.
Lemma side_length n m : length (side n false m) + length (side n true m) = length m.
Proof.
  induction m as [|[k v] m IH]; simpl; [reflexivity|].
  destruct (bit k n); simpl; lia.
Qed.
Lemma side_perm_split n m : Permutation m (side n false m ++ side n true m).
Proof.
  induction m as [|[k v] m IH]; simpl; [constructor|].
  destruct (bit k n); simpl.
  - apply Permutation_cons_app. exact IH.
  - constructor. exact IH.
Qed.
Lemma perm_filter {A} (f : A -> bool) l1 l2 : Permutation l1 l2 -> Permutation (filter f l1) (filter f l2).
Proof.
  induction 1 as [|x l l' Hp IH|x y l|l l' l'' Hp1 IH1 Hp2 IH2]; simpl.
  - constructor.
  - destruct (f x); [constructor|]; exact IH.
  - destruct (f x), (f y); try apply Permutation_refl. constructor.
  - eapply Permutation_trans; eauto.
Qed.

(** ** build *)
Lemma build_perm h m1 m2 : Permutation m1 m2 -> build h m1 = build h m2.
Proof.
  revert m1 m2. induction h as [|h IH]; intros m1 m2 Hp.
  - pose proof (Permutation_length Hp) as Hl.
    destruct m1 as [|[k1 v1] [|kv m1]], m2 as [|[k2 v2] [|kv2 m2]]; try discriminate; auto.
    apply Permutation_length_1 in Hp. injection Hp as -> ->. reflexivity.
  - pose proof (Permutation_length Hp) as Hl.
    destruct m1 as [|[k1 v1] [|kv m1]]; destruct m2 as [|[k2 v2] [|kv2 m2]]; try discriminate; auto.
    + apply Permutation_length_1 in Hp. injection Hp as -> ->. reflexivity.
    + cbn [build]. f_equal; apply IH; apply perm_filter; exact Hp.
Qed.

Lemma build_S h m : 2 <= length m ->
  build (S h) m = N (build h (side (TrieHeight - S h) false m)) (build h (side (TrieHeight - S h) true m)).
Proof. destruct m as [|[k v] [|kv m]]; simpl length; intros Hl; try lia. reflexivity. Qed.

(** ** Key sets with a common prefix *)
Definition share (n : nat) (ks : list bytes) : Prop := forall a b, In a ks -> In b ks -> agree n a b.
Definition lens (ks : list bytes) : Prop := forall a, In a ks -> length a = HashLength.

Lemma share_incl n ks ks' : incl ks' ks -> share n ks -> share n ks'.
Proof. intros Hi Hs a b Ha Hb. apply Hs; auto. Qed.
Lemma sep_incl ks ks' : incl ks' ks -> sep ks -> sep ks'.
Proof. intros Hi Hs a b Ha Hb. apply Hs; auto. Qed.
Lemma lens_incl ks ks' : incl ks' ks -> lens ks -> lens ks'.
Proof. intros Hi Hs a Ha. apply Hs; auto. Qed.

Lemma side_keys_incl n b m : incl (keys (side n b m)) (keys m).
Proof. intros k Hi. apply in_side_keys in Hi. tauto. Qed.

Lemma side_share n b m batch :
  share n (keys m ++ keys batch) -> share (S n) (keys (side n b m) ++ keys (side n b batch)).
Proof.
  intros Hs x y Hx Hy. apply agree_S.
  apply in_app_iff in Hx, Hy. rewrite !in_side_keys in Hx, Hy. split.
  - apply Hs; apply in_app_iff; tauto.
  - destruct Hx as [[_ ->]|[_ ->]], Hy as [[_ ->]|[_ ->]]; reflexivity.
Qed.
Lemma side_share1 n b m : share n (keys m) -> share (S n) (keys (side n b m)).
Proof.
  intros Hs. pose proof (side_share n b m []) as Hq. simpl in Hq. rewrite !app_nil_r in Hq. auto.
Qed.

(** Distinct keys cannot all share 255 bits if no two are last-bit siblings. *)
Lemma sep_share_le1 m : NoDup (keys m) -> sep (keys m) -> share (TrieHeight - 1) (keys m) -> length m <= 1.
Proof.
  intros Hn Hsep Hsh. destruct m as [|[k1 v1] [|[k2 v2] m]]; simpl; try lia. exfalso.
  assert (k1 = k2).
  { apply Hsep; simpl; auto. apply Hsh; simpl; auto. }
  subst. inversion Hn as [|? ? Hni Hn' Heq]; subst. apply Hni. simpl. auto.
Qed.

(** ** Well-formed trees: leaves sit at heights 1..256 and are 32-byte pairs; no inner node is childless. *)
Fixpoint wf (h : nat) (t : tree) : Prop :=
  match t with
  | E => True
  | L k v => 1 <= h <= TrieHeight /\ length k = HashLength /\ length v = HashLength
  | N l r => h <= TrieHeight /\ (l <> E \/ r <> E) /\ wf (pred h) l /\ wf (pred h) r
  end.

Fixpoint tkeys (t : tree) : list bytes :=
  match t with
  | E => []
  | L k _ => [k]
  | N l r => tkeys l ++ tkeys r
  end.

Lemma build_tkeys h m k : In k (tkeys (build h m)) -> In k (keys m).
Proof.
  revert m. induction h as [|h IH]; intros m.
  - destruct m as [|[k1 v1] [|kv m]]; simpl; tauto.
  - destruct (le_lt_dec 2 (length m)) as [Hl|Hl].
    + rewrite build_S by exact Hl. simpl. rewrite in_app_iff.
      intros [Hi|Hi]; apply IH in Hi; apply in_side_keys in Hi; tauto.
    + destruct m as [|[k1 v1] [|kv m]]; simpl in *; try lia; tauto.
Qed.

Lemma wf_keys h t k : wf h t -> In k (tkeys t) -> length k = HashLength.
Proof.
  revert h. induction t as [|k' v|l IHl r IHr]; intros h; simpl; try tauto.
  - intros (_ & Hk & _) [<-|[]]. exact Hk.
  - intros (_ & _ & Hl & Hr) Hi. apply in_app_iff in Hi as [Hi|Hi]; eauto.
Qed.

Definition vals_ok (m : kvmap) : Prop := forall k v, In (k, v) m -> length v = HashLength.

Definition dom (h : nat) (ks : list bytes) : Prop :=
  1 <= h <= TrieHeight /\ share (TrieHeight - h) ks /\ sep ks /\ lens ks.

Lemma dom_incl h ks ks' : incl ks' ks -> dom h ks -> dom h ks'.
Proof.
  intros Hi (Hh & Hs & Hp & Hl). split; [exact Hh|]. split; [eapply share_incl; eauto|].
  split; [eapply sep_incl; eauto | eapply lens_incl; eauto].
Qed.

(** With two or more distinct keys the height is at least 2, and both sides stay in their domain. *)
Lemma dom_two h m : dom h (keys m) -> NoDup (keys m) -> 2 <= length m -> 2 <= h.
Proof.
  intros (Hh & Hs & Hp & Hl) Hn H2. destruct (Nat.eq_dec h 1) as [->|]; [|lia].
  pose proof (sep_share_le1 m Hn Hp Hs). lia.
Qed.

Lemma dom_side h b m batch : 1 <= h ->
  dom (S h) (keys m ++ keys batch) ->
  dom h (keys (side (TrieHeight - S h) b m) ++ keys (side (TrieHeight - S h) b batch)).
Proof.
  intros H1 (Hh & Hs & Hp & Hl).
  assert (Hi : incl (keys (side (TrieHeight - S h) b m) ++ keys (side (TrieHeight - S h) b batch))
                    (keys m ++ keys batch)).
  { apply incl_app_app; apply side_keys_incl. }
  split; [lia|]. split.
  - replace (TrieHeight - h) with (S (TrieHeight - S h)) by lia. apply side_share. exact Hs.
  - split; [eapply sep_incl; eauto | eapply lens_incl; eauto].
Qed.

Lemma dom_side1 h b m : 1 <= h -> dom (S h) (keys m) -> dom h (keys (side (TrieHeight - S h) b m)).
Proof.
  intros H1 Hd. pose proof (dom_side h b m [] H1) as Hq. simpl in Hq. rewrite !app_nil_r in Hq. auto.
Qed.

Lemma side_vals n b m : vals_ok m -> vals_ok (side n b m).
Proof. intros Hv k v Hi. apply in_side in Hi as [Hi _]. eapply Hv; eauto. Qed.

Lemma build_E h m : dom h (keys m) -> NoDup (keys m) -> build h m = E -> m = [].
Proof.
  intros Hd Hn He. destruct m as [|[k v] [|kv m]]; auto; try (destruct h; discriminate).
  exfalso. pose proof (dom_two h _ Hd Hn ltac:(simpl; lia)) as H2. destruct h as [|h]; [lia|].
  rewrite build_S in He by (simpl; lia). discriminate.
Qed.

Lemma build_wf h m : dom h (keys m) -> NoDup (keys m) -> vals_ok m -> wf h (build h m).
Proof.
  revert m. induction h as [|h IH]; intros m Hd Hn Hv.
  - destruct Hd as ((Hh & _) & _). lia.
  - destruct (le_lt_dec 2 (length m)) as [Hl|Hl].
    + pose proof (dom_two _ _ Hd Hn Hl) as H2. rewrite build_S by exact Hl. simpl.
      pose proof (dom_side1 h false m ltac:(lia) Hd) as Hdf.
      pose proof (dom_side1 h true m ltac:(lia) Hd) as Hdt.
      pose proof (side_NoDup (TrieHeight - S h) false m Hn) as Hnf.
      pose proof (side_NoDup (TrieHeight - S h) true m Hn) as Hnt.
      split; [destruct Hd as (Hh & _); lia|]. split.
      * destruct (build h (side (TrieHeight - S h) false m)) eqn:Hb1; try (left; discriminate).
        apply build_E in Hb1; auto. right. intros Hb2. apply build_E in Hb2; auto.
        pose proof (side_length (TrieHeight - S h) m) as Hsl. rewrite Hb1, Hb2 in Hsl. simpl in Hsl. lia.
      * split; apply IH; auto using side_vals.
    + destruct m as [|[k v] [|kv m]]; simpl in *; try lia; auto.
      destruct Hd as (Hh & _ & _ & Hle). split; [exact Hh|]. split; [apply Hle; simpl; auto | eapply Hv; simpl; eauto].
Qed.

(** The leaves of the canonical tree are the entries of the map. *)
Fixpoint leaves (t : tree) : kvmap :=
  match t with
  | E => []
  | L k v => [(k, v)]
  | N l r => leaves l ++ leaves r
  end.

Lemma build_leaves h m : dom h (keys m) -> NoDup (keys m) -> Permutation (leaves (build h m)) m.
Proof.
  revert m. induction h as [|h IH]; intros m Hd Hn.
  - destruct Hd as ((Hh & _) & _). lia.
  - destruct (le_lt_dec 2 (length m)) as [Hl|Hl].
    + pose proof (dom_two _ _ Hd Hn Hl) as H2. rewrite build_S by exact Hl. simpl.
      eapply Permutation_trans; [|apply Permutation_sym, (side_perm_split (TrieHeight - S h))].
      apply Permutation_app; apply IH; auto using side_NoDup; apply dom_side1; auto; lia.
    + destruct m as [|[k v] [|kv m]]; simpl in *; try lia; auto.
Qed.

Lemma build_inj h m1 m2 :
  dom h (keys m1) -> NoDup (keys m1) -> dom h (keys m2) -> NoDup (keys m2) ->
  build h m1 = build h m2 -> Permutation m1 m2.
Proof.
  intros Hd1 Hn1 Hd2 Hn2 He.
  eapply Permutation_trans; [apply Permutation_sym, (build_leaves h); assumption|].
  rewrite He. apply build_leaves; assumption.
Qed.
