(** Update turns the stored canonical tree of a map into the stored canonical tree of the overridden map. *)
From Coq Require Import Permutation.
From Verif Require Import Base TrieModel TrieSpec BaseLemmas TrieMaps TrieHash TrieStore TrieBatch.

(** ** Successful runs *)
Definition runs {A : Type} (m : M A) (s : cdb) (Q : A -> cdb -> Prop) : Prop :=
  exists a s', m s = (Ok a, s') /\ Q a s'.
Lemma runs_ret {A} (a : A) s (Q : A -> cdb -> Prop) : Q a s -> runs (ret a) s Q.
Proof. intros Hq. exists a, s. auto. Qed.
Lemma runs_bind {A B} (m : M A) (f : A -> M B) s (Q : B -> cdb -> Prop) :
  runs m s (fun a s1 => runs (f a) s1 Q) -> runs (bind m f) s Q.
Proof.
  intros (a & s1 & Hm & b & s2 & Hf & Hq). exists b, s2. unfold bind. rewrite Hm. auto.
Qed.
Lemma runs_mono {A} (m : M A) s (Q Q' : A -> cdb -> Prop) :
  (forall a s', Q a s' -> Q' a s') -> runs m s Q -> runs m s Q'.
Proof. intros Hq (a & s1 & Hm & Ha). exists a, s1. auto. Qed.

(** A node with children [l] and [r], or the leaf that moves up. *)
Definition collapse (l r : tree) : tree :=
  match l, r with
  | E, E => E
  | L k v, E => L k v
  | E, L k v => L k v
  | _, _ => N l r
  end.

Lemma build_leaf_inv h m k v : build h m = L k v -> m = [(k, v)].
Proof.
  destruct m as [|[k1 v1] [|kv m]]; destruct h; cbn [build]; intros Hq; try discriminate;
  injection Hq as -> ->; reflexivity.
Qed.

Lemma build_collapse h m : 1 <= h -> dom (S h) (keys m) -> NoDup (keys m) ->
  build (S h) m = collapse (build h (side (TrieHeight - S h) false m)) (build h (side (TrieHeight - S h) true m)).
Proof.
  intros H1 Hd Hn. pose proof (side_length (TrieHeight - S h) m) as Hsl.
  pose proof (dom_side1 h false m H1 Hd) as Df. pose proof (dom_side1 h true m H1 Hd) as Dt.
  pose proof (side_NoDup (TrieHeight - S h) false m Hn) as Nf.
  pose proof (side_NoDup (TrieHeight - S h) true m Hn) as Nt.
  destruct (le_lt_dec 2 (length m)) as [Hl|Hl].
  - rewrite build_S by exact Hl.
    destruct (build h (side (TrieHeight - S h) false m)) as [|k1 v1|l1 r1] eqn:Bf;
    destruct (build h (side (TrieHeight - S h) true m)) as [|k2 v2|l2 r2] eqn:Bt; cbn [collapse]; try reflexivity;
    exfalso; try (apply build_E in Bf; [|assumption|assumption]); try (apply build_E in Bt; [|assumption|assumption]);
    try apply build_leaf_inv in Bf; try apply build_leaf_inv in Bt; rewrite ?Bf, ?Bt in Hsl; simpl in Hsl; lia.
  - destruct m as [|[k v] [|kv m]]; [| |simpl in Hl; lia].
    + simpl. destruct h; reflexivity.
    + unfold side. cbn [filter fst]. destruct (bit k (TrieHeight - S h)); simpl; destruct h; reflexivity.
Qed.

Lemma side_all n (m : kvmap) : side n false m = [] -> side n true m = m.
Proof.
  induction m as [|[k v] m IH]; [reflexivity|]. unfold side in *. cbn [filter fst].
  destruct (bit k n); cbn [Bool.eqb]; intros Hq; [|discriminate]. f_equal. apply IH. exact Hq.
Qed.
Lemma side_all' n (m : kvmap) : side n true m = [] -> side n false m = m.
Proof.
  induction m as [|[k v] m IH]; [reflexivity|]. unfold side in *. cbn [filter fst].
  destruct (bit k n); cbn [Bool.eqb]; intros Hq; [discriminate|]. f_equal. apply IH. exact Hq.
Qed.

Lemma mod4_S h : (S h mod 4 = 0 /\ h mod 4 = 3) \/ (S h mod 4 <> 0 /\ S h mod 4 = S (h mod 4)).
Proof.
  pose proof (Nat.div_mod h 4 ltac:(lia)). pose proof (Nat.mod_upper_bound h 4 ltac:(lia)).
  pose proof (Nat.div_mod (S h) 4 ltac:(lia)). pose proof (Nat.mod_upper_bound (S h) 4 ltac:(lia)). lia.
Qed.

Section Update.
  Variable H : bytes -> bytes.
  Hypothesis Hlen : forall x, length (H x) = HashLength.
  Variable limit : nat.
  Variable atomic : bool.
  Variable G : bytes -> Prop.
  Hypothesis Hcf : collision_free H G.
  Hypothesis Hnz : forall x, G x -> H x <> zero_hash.

  Notation hash_of := (hash_of H).
  Notation good := (good H G).
  Notation node := (node H).
  Notation desc := (desc H).
  Notation batch_ok := (batch_ok H).
  Notation stored := (stored H).
  Notation live_ok := (live_ok H G).
  Notation has := (has H).
  Notation nodes := (nodes H).
  Notation rootlike := (rootlike H).
  Notation update := (update H limit atomic).

  (** The strings of the tree of [m], and of its leaves wherever they may sit. *)
  Definition Gok (h : nat) (m : kvmap) : Prop :=
    (forall s, In s (strings_of H h (build h m)) -> G s) /\
    (forall k v h', In (k, v) m -> 1 <= h' <= h -> G (leaf_string k v h')).

  Lemma Gok_side h b m : 1 <= h -> Gok (S h) m -> Gok h (side (TrieHeight - S h) b m).
  Proof.
    intros H1 [Hs Hl]. split.
    - destruct (le_lt_dec 2 (length m)) as [Hm|Hm].
      + rewrite build_S in Hs by exact Hm. intros s Hi. apply Hs. cbn [strings_of pred]. right.
        apply in_app_iff. destruct b; auto.
      + intros s Hi. destruct (side (TrieHeight - S h) b m) as [|[k v] [|kv m']] eqn:Hsd.
        * destruct h; destruct Hi.
        * assert (Hb : build h [(k, v)] = L k v) by (destruct h; reflexivity). rewrite Hb in Hi.
          destruct Hi as [<-|[]]. apply Hl; [|lia].
          assert (Hin : In (k, v) (side (TrieHeight - S h) b m)) by (rewrite Hsd; simpl; auto).
          apply in_side in Hin. tauto.
        * pose proof (side_length (TrieHeight - S h) m). destruct b; rewrite Hsd in *; simpl in *; lia.
    - intros k v h' Hi Hh. apply in_side in Hi as [Hi _]. apply Hl; [exact Hi | lia].
  Qed.

  Lemma build_good h m : dom h (keys m) -> NoDup (keys m) -> vals_ok m -> Gok h m -> good h (build h m).
  Proof. intros Hd Hn Hv [Hs _]. split; [apply build_wf; assumption | exact Hs]. Qed.

  (** ** Frames *)
  Definition touchable (h : nat) (ks : list bytes) (x : bytes) : Prop :=
    x = zero_hash \/
    exists h2 t2, h2 <= h /\ good h2 t2 /\ t2 <> E /\ hash_of h2 t2 = x /\ incl (tkeys t2) ks.
  Definition frame (h : nat) (ks : list bytes) (s s' : cdb) : Prop :=
    store s' = store s /\ forall x, touchable h ks x \/ updated s' x = updated s x.

  Lemma frame_refl h ks s : frame h ks s s.
  Proof. split; auto. Qed.
  Lemma frame_trans h ks s1 s2 s3 : frame h ks s1 s2 -> frame h ks s2 s3 -> frame h ks s1 s3.
  Proof.
    intros [A1 B1] [A2 B2]. split; [congruence|]. intros x.
    destruct (B1 x) as [|E1]; [auto|]. destruct (B2 x) as [|E2]; [auto|]. right. congruence.
  Qed.
  Lemma touchable_weaken h ks h' ks' x : h <= h' -> incl ks ks' -> touchable h ks x -> touchable h' ks' x.
  Proof.
    intros Hh Hk [->|(h2 & t2 & H1 & H2 & H3 & H4 & H5)]; [left; reflexivity|].
    right. exists h2, t2. split; [lia|]. do 3 (split; [assumption|]). eapply incl_tran; eauto.
  Qed.
  Lemma frame_weaken h ks h' ks' s s' : h <= h' -> incl ks ks' -> frame h ks s s' -> frame h' ks' s s'.
  Proof.
    intros Hh Hk [A B]. split; [exact A|]. intros x. destruct (B x) as [Ht|Hq]; [|auto].
    left. eapply touchable_weaken; eauto.
  Qed.
  Lemma frame_same h ks s s' : updated s' = updated s -> store s' = store s -> frame h ks s s'.
  Proof. intros Hu Hs. split; [exact Hs|]. intros x. right. rewrite Hu. reflexivity. Qed.

  Lemma pend_same s s' x : store s' = store s -> updated s' x = updated s x -> pend s' x = pend s x.
  Proof. intros Hs Hu. unfold pend. rewrite Hs, Hu. reflexivity. Qed.

  Lemma frame_stored h ks s s' h0 t0 : frame h ks s s' -> good h0 t0 ->
    (forall k, In k ks -> In k (tkeys t0) -> False) -> stored s h0 t0 -> stored s' h0 t0.
  Proof.
    intros [Hs Hf] Hg Hd Hst. eapply stored_frame; [|exact Hst]. intros x Hx.
    apply pend_same; [exact Hs|]. destruct (Hf x) as [Ht|Hq]; [|exact Hq]. exfalso.
    destruct (nodes_good H G h0 t0 x Hg Hx) as (h2 & t2 & _ & Hg2 & Hne2 & _ & Hh2 & Hk2 & _).
    destruct Ht as [->|(h3 & t3 & _ & Hg3 & Hne3 & Hh3 & Hk3)].
    - apply (good_nz H G Hnz h2 t2 Hg2 Hne2). exact Hh2.
    - rewrite <- Hh3 in Hh2. destruct (hash_inj H Hlen G Hcf _ _ _ _ Hg2 Hg3 Hne2 Hh2) as [-> ->].
      destruct (tkeys_nonempty _ _ (proj1 Hg2) Hne2) as (k & Hk). eapply Hd; eauto.
  Qed.

  Lemma frame_stored_height s s' h0 t0 : good h0 t0 ->
    store s' = store s ->
    (forall x, (x = zero_hash \/ exists h2 t2, h0 < h2 /\ good h2 t2 /\ t2 <> E /\ hash_of h2 t2 = x) \/
               updated s' x = updated s x) ->
    stored s h0 t0 -> stored s' h0 t0.
  Proof.
    intros Hg Hs Hf Hst. eapply stored_frame; [|exact Hst]. intros x Hx.
    apply pend_same; [exact Hs|]. destruct (Hf x) as [Ht|Hq]; [|exact Hq]. exfalso.
    destruct (nodes_good H G h0 t0 x Hg Hx) as (h2 & t2 & Hle & Hg2 & Hne2 & _ & Hh2 & Hk2 & _).
    destruct Ht as [->|(h3 & t3 & Hlt & Hg3 & Hne3 & Hh3)].
    - apply (good_nz H G Hnz h2 t2 Hg2 Hne2). exact Hh2.
    - rewrite <- Hh3 in Hh2. destruct (hash_inj H Hlen G Hcf _ _ _ _ Hg2 Hg3 Hne2 Hh2) as [_ ->]. lia.
  Qed.

  (** ** Primitive steps *)
  Lemma delete_old_ok root h mv s :
    runs (delete_old_node limit atomic root h mv) s (fun _ s' =>
      store s' = store s /\ removed s' = removed s /\
      (forall x, x <> to_hash root -> updated s' x = updated s x) /\
      (live_ok s -> live_ok s')).
  Proof.
    eexists. eexists. split; [reflexivity|]. cbn [store removed updated live]. split; [reflexivity|].
    split; [reflexivity|]. split.
    - intros x Hx. destruct (negb atomic || mv); [|reflexivity]. unfold map_set.
      destruct (beqb_spec x (to_hash root)); [contradiction|reflexivity].
    - intros Hl x b [Hx|Hx]; cbn [live updated] in Hx.
      + destruct (Nat.leb limit h); [|eapply Hl; left; exact Hx].
        unfold map_set in Hx. destruct (beqb x (to_hash root)); [discriminate|]. eapply Hl; left; exact Hx.
      + destruct (negb atomic || mv); [|eapply Hl; right; exact Hx].
        unfold map_set in Hx. destruct (beqb x (to_hash root)); [discriminate|]. eapply Hl; right; exact Hx.
  Qed.

  Lemma root_touch h t root : rootlike h t root ->
    (t = E /\ to_hash root = zero_hash) \/ (t <> E /\ to_hash root = hash_of h t).
  Proof.
    intros Hr. destruct t as [|k v|l r].
    - left. split; [reflexivity|]. pose proof (proj2 (rootlike_nil H Hlen _ _ _ Hr) eq_refl) as ->.
      apply to_hash_nil.
    - right. split; [discriminate|]. apply (rootlike_to_hash H Hlen); [exact Hr | discriminate].
    - right. split; [discriminate|]. apply (rootlike_to_hash H Hlen); [exact Hr | discriminate].
  Qed.

  Lemma node_ne_root h t told root : good h t -> t <> E -> (told = E \/ good h told) -> t <> told ->
    rootlike h told root -> node h t <> root.
  Proof.
    intros Hg Hne Hgo Hd Hr Hq. pose proof (rootlike_firstn H Hlen _ _ _ Hr) as Hf.
    rewrite <- Hq, (node_firstn H Hlen) in Hf.
    destruct Hgo as [->|Hgo].
    - apply (hash_nil H Hlen) in Hf. contradiction.
    - destruct (hash_inj H Hlen G Hcf _ _ _ _ Hg Hgo Hne Hf) as [He _]. contradiction.
  Qed.

  Lemma store_node_ok b h t told root s :
    good h t -> t <> E -> h mod 4 = 0 -> batch_ok b h t -> (told = E \/ good h told) -> t <> told ->
    rootlike h told root -> live_ok s ->
    runs (store_node limit atomic b (node h t) root h) s (fun _ s' =>
      has s' h t /\ live_ok s' /\ store s' = store s /\ removed s' = removed s /\
      (forall x, x = zero_hash \/ x = hash_of h t \/ (told <> E /\ x = hash_of h told) \/
                 updated s' x = updated s x)).
  Proof.
    intros Hg Hne Hm Hb Hgo Hd Hr Hl. unfold store_node.
    destruct (beqb_spec (node h t) root) as [Hq|Hq].
    { exfalso. eapply node_ne_root; eauto. }
    rewrite (to_hash_node H Hlen) by exact Hne. apply runs_bind.
    eexists. eexists. split; [reflexivity|]. cbv beta.
    eapply runs_mono; [|apply delete_old_ok]. cbv beta. intros _ s' (Hs & Hrem & Hu & Hlv).
    cbn [store removed updated live] in *.
    assert (Hto : to_hash root <> hash_of h t).
    { destruct (root_touch _ _ _ Hr) as [[_ ->]|[Hne' ->]].
      - intros Hz. symmetry in Hz. revert Hz. apply (good_nz H G Hnz); assumption.
      - destruct Hgo as [->|Hgo]; [congruence|]. intros Hz.
        destruct (hash_inj H Hlen G Hcf _ _ _ _ Hgo Hg Hne' Hz) as [He _]. congruence. }
    split; [|split; [|split; [exact Hs | split; [exact Hrem|]]]].
    - exists b. split; [|exact Hb]. unfold pend. rewrite Hu by (intros Hz; apply Hto; symmetry; exact Hz).
      unfold map_set. rewrite beqb_refl. reflexivity.
    - apply Hlv. intros x b' Hx h2 t2 Hg2 Hne2 Hm2 Hh2. cbn [live updated] in Hx.
      assert (Hx' : (live s x = Some b' \/ updated s x = Some b') \/ (x = hash_of h t /\ b' = b)).
      { destruct Hx as [Hx|Hx]; [destruct (Nat.leb limit h); [|auto]|]; unfold map_set in Hx;
        (destruct (beqb_spec x (hash_of h t)) as [He|He]; [injection Hx as <-; auto | auto]). }
      destruct Hx' as [Hx'|[He ->]]; [eapply Hl; eauto|]. subst x.
      destruct (hash_inj H Hlen G Hcf _ _ _ _ Hg2 Hg Hne2 He) as [-> ->]. exact Hb.
    - intros x. destruct (root_touch _ _ _ Hr) as [[_ Ht]|[Hne' Ht]]; rewrite Ht in *.
      + destruct (beqb_spec x zero_hash) as [|Hxz]; [auto|].
        destruct (beqb_spec x (hash_of h t)) as [|Hxt]; [auto|]. right. right. right.
        rewrite Hu by exact Hxz. unfold map_set. destruct (beqb_spec x (hash_of h t)); [contradiction|reflexivity].
      + destruct (beqb_spec x (hash_of h told)) as [|Hxz]; [auto|].
        destruct (beqb_spec x (hash_of h t)) as [|Hxt]; [auto|]. right. right. right.
        rewrite Hu by exact Hxz. unfold map_set. destruct (beqb_spec x (hash_of h t)); [contradiction|reflexivity].
  Qed.

  (** loadChildren on a stored tree. The number of levels below the position is [S (pred h mod 4)]. *)
  Lemma load_children_ok h' t root i b s :
    let h := S h' in
    (t = E \/ good h t) -> rootlike h t root ->
    (h mod 4 <> 0 -> i <> 0 /\ length b = 31 /\ (i + 2) * 2 ^ (h mod 4) <= 32 /\ slot i b = node h t /\
                     desc (h mod 4) i h t b) ->
    stored s h t -> live_ok s ->
    runs (load_children limit root h i b) s (fun r s' =>
      let '(nb, ni, l, r, sc) := r in
      length nb = 31 /\ (ni + 2) * 2 ^ S (h' mod 4) <= 32 /\ (ni = 0 <-> h mod 4 = 0) /\
      (h mod 4 <> 0 -> nb = b /\ ni = i) /\ desc (S (h' mod 4)) ni h t nb /\
      l = slot (2 * ni + 1) nb /\ r = slot (2 * ni + 2) nb /\ sc = is_leaf t /\
      live_ok s' /\ updated s' = updated s /\ removed s' = removed s /\ store s' = store s).
  Proof.
    intros h Hg Hr Hi Hst Hl. unfold load_children.
    destruct (mod4_S h') as [[Hm Hm']|[Hm Hm']]; fold h in Hm, Hm'.
    - rewrite Hm, Nat.eqb_refl. apply runs_bind. rewrite Hm'.
      assert (Hload : runs (match root with [] => ret (set_nth 0 [x00] empty_batch) | _ :: _ => load_batch limit root h end) s
        (fun nb s' => batch_ok nb h t /\ live_ok s' /\ updated s' = updated s /\ removed s' = removed s /\ store s' = store s)).
      { destruct root as [|y root'].
        - pose proof (proj1 (rootlike_nil H Hlen _ _ _ Hr) eq_refl) as ->. apply runs_ret.
          split; [apply batch_ok_empty|]. auto.
        - assert (Hne : t <> E).
          { intros He. apply (rootlike_nil H Hlen _ _ _ Hr) in He. discriminate. }
          destruct Hg as [|Hg]; [contradiction|].
          destruct (load_batch_ok H Hlen limit G Hcf s h t (y :: root') Hg Hne Hm Hr) as (nb & s' & Hq & Hrest);
          [apply stored_has; assumption | exact Hl|].
          exists nb, s'. split; [exact Hq | exact Hrest]. }
      eapply runs_mono; [|exact Hload]. cbv beta. intros nb s' ((Hlb & H0 & Hd) & Hlv & Hu & Hrm & Hs).
      apply runs_ret. split; [exact Hlb|]. split; [cbv; lia|]. split; [tauto|]. split; [congruence|].
      split; [exact Hd|]. split; [reflexivity|]. split; [reflexivity|]. split; [|auto].
      rewrite H0. destruct (is_leaf t); reflexivity.
    - destruct (Hi Hm) as (Hi0 & Hlb & Hbd & Hsl & Hd). apply Nat.eqb_neq in Hm as Hmb. rewrite Hmb.
      apply runs_ret. rewrite Hm' in Hbd, Hd. split; [exact Hlb|]. split; [exact Hbd|]. split; [tauto|].
      split; [auto|]. split; [exact Hd|]. split; [reflexivity|]. split; [reflexivity|]. split; [|auto].
      rewrite Hsl. destruct t as [|k v|l r]; [reflexivity| |].
      + pose proof (node_flag H Hlen h (L k v) ltac:(discriminate)) as Hf.
        destruct (node h (L k v)) eqn:Hnd; [apply (node_nil H) in Hnd; discriminate|]. rewrite Hf. reflexivity.
      + pose proof (node_flag H Hlen h (N l r) ltac:(discriminate)) as Hf.
        destruct (node h (N l r)) eqn:Hnd; [apply (node_nil H) in Hnd; discriminate|]. rewrite Hf. reflexivity.
  Qed.

  (** ** Batches after slot assignments *)
  Lemma desc_intro n i h t b b' :
    (forall j, sd n (2 * i + 1) j \/ sd n (2 * i + 2) j -> slot j b' = slot j b) ->
    desc n (2 * i + 1) (pred h) (ltree t) b -> desc n (2 * i + 2) (pred h) (rtree t) b ->
    match t with
    | E => slot (2 * i + 1) b' = [] /\ slot (2 * i + 2) b' = []
    | L k v => slot (2 * i + 1) b' = k ++ [x02] /\ slot (2 * i + 2) b' = v ++ [x02]
    | N l r => slot (2 * i + 1) b' = node (pred h) l /\ slot (2 * i + 2) b' = node (pred h) r
    end ->
    desc (S n) i h t b'.
  Proof.
    intros Hf Hl Hr Ht. cbn [TrieStore.desc]. split; [exact Ht|]. split.
    - eapply desc_frame; [|exact Hl]. intros j Hj. apply Hf. auto.
    - eapply desc_frame; [|exact Hr]. intros j Hj. apply Hf. auto.
  Qed.

  Definition set2 (i : nat) (x y : bytes) (b : batch) : batch := set_nth (2 * i + 2) y (set_nth (2 * i + 1) x b).
  Lemma set2_length i x y b : length (set2 i x y b) = length b.
  Proof. unfold set2. rewrite !set_nth_length. reflexivity. Qed.
  Lemma set2_l i x y b : length b = 31 -> 2 * i + 2 <= 30 -> slot (2 * i + 1) (set2 i x y b) = x.
  Proof.
    intros Hl Hi. unfold set2. rewrite slot_set_ne by lia. apply slot_set_eq; [exact Hl | lia].
  Qed.
  Lemma set2_r i x y b : length b = 31 -> 2 * i + 2 <= 30 -> slot (2 * i + 2) (set2 i x y b) = y.
  Proof. intros Hl Hi. unfold set2. apply slot_set_eq; [rewrite set_nth_length; exact Hl | lia]. Qed.
  Lemma set2_ne i x y b j : j <> 2 * i + 1 -> j <> 2 * i + 2 -> slot j (set2 i x y b) = slot j b.
  Proof. intros H1 H2. unfold set2. rewrite !slot_set_ne by assumption. reflexivity. Qed.

  (** Overwriting the two children slots keeps everything below them. *)
  Lemma desc_set2 n i h t x y b :
    length b = 31 -> 2 * i + 2 <= 30 ->
    desc n (2 * i + 1) (pred h) (ltree t) b -> desc n (2 * i + 2) (pred h) (rtree t) b ->
    match t with
    | E => x = [] /\ y = []
    | L k v => x = k ++ [x02] /\ y = v ++ [x02]
    | N l r => x = node (pred h) l /\ y = node (pred h) r
    end ->
    desc (S n) i h t (set2 i x y b).
  Proof.
    intros Hl Hi Hdl Hdr Ht. eapply desc_intro; [|exact Hdl|exact Hdr|].
    - intros j [Hj|Hj]; [apply sd_top_disjoint in Hj | apply sd_top_disjoint2 in Hj]; apply set2_ne; tauto.
    - rewrite set2_l, set2_r by assumption. exact Ht.
  Qed.

  Lemma desc_clear n i h k v b : length b = 31 -> 2 * i + 2 <= 30 -> 
    desc (S n) i h (L k v) b -> desc (S n) i h E (set2 i [] [] b).
  Proof. intros Hl Hi (_ & Hdl & Hdr). apply desc_set2; auto. Qed.

  Lemma set2_slot0 i x y b : slot 0 (set2 i x y b) = slot 0 b.
  Proof. apply set2_ne; lia. Qed.

  Lemma sd_set2 n i x y b j : ~ sd (S n) i j -> slot j (set2 i x y b) = slot j b.
  Proof.
    intros Hj. apply set2_ne; intros ->; apply Hj; cbn [sd]; auto.
  Qed.

  Lemma sd_child_l n i j : ~ sd (S n) i j -> ~ sd n (2 * i + 1) j.
  Proof. intros Hn Hs. apply Hn. cbn [sd]. auto. Qed.
  Lemma sd_child_r n i j : ~ sd (S n) i j -> ~ sd n (2 * i + 2) j.
  Proof. intros Hn Hs. apply Hn. cbn [sd]. auto. Qed.

  Lemma set_nth_comm {A} i j (x y : A) l : i <> j -> set_nth i x (set_nth j y l) = set_nth j y (set_nth i x l).
  Proof.
    revert i j. induction l as [|z l IH]; intros [|i] [|j] Hn; cbn [set_nth]; try reflexivity; [congruence|].
    f_equal. apply IH. congruence.
  Qed.
  Lemma set_swap i x y (b : batch) : set_nth (2 * i + 1) x (set_nth (2 * i + 2) y b) = set2 i x y b.
  Proof. unfold set2. apply set_nth_comm. lia. Qed.

  Lemma wf_leaf_k h k v : good h (L k v) -> length k = HashLength /\ length v = HashLength.
  Proof. intros [(_ & Hk & Hv) _]. auto. Qed.

  (** ** moveUpShortcut: the child at slot [is] is the leaf (k, v), its sibling at slot [io] is empty. *)
  Lemma move_up_ok h' k v told root nb ni is io ks s :
    let h := S h' in
    (is = 2 * ni + 1 /\ io = 2 * ni + 2 \/ is = 2 * ni + 2 /\ io = 2 * ni + 1) ->
    length nb = 31 -> (ni + 2) * 2 ^ S (h' mod 4) <= 32 -> (ni = 0 <-> h mod 4 = 0) ->
    desc (h' mod 4) is h' (L k v) nb -> desc (h' mod 4) io h' E nb ->
    good h' (L k v) -> good h (L k v) -> (told = E \/ good h told) -> L k v <> told -> rootlike h told root ->
    stored s h' (L k v) -> live_ok s -> In k ks -> incl (tkeys told) ks ->
    runs (move_up_shortcut H limit atomic (node h' (L k v)) root nb ni is h') s (fun r s' =>
      let '(nd, d, nb') := r in
      nd = node h (L k v) /\ d = true /\ length nb' = 31 /\
      (h mod 4 <> 0 -> desc (S (h' mod 4)) ni h (L k v) nb' /\
                       forall j, ~ sd (S (h' mod 4)) ni j -> slot j nb' = slot j nb) /\
      stored s' h (L k v) /\ live_ok s' /\ frame h ks s s' /\ removed s' = removed s).
  Proof.
    intros h His Hlb Hbd Hni Hds Hdo Hg' Hg Hgo Hne Hr Hst Hl Hk Hkt.
    pose proof (child_le _ _ Hbd) as Hc.
    destruct (wf_leaf_k _ _ _ Hg) as [Hlk Hlv].
    assert (Hnode : H (firstn HashLength (k ++ [x02]) ++ firstn HashLength (v ++ [x02]) ++ [byte_of_nat h]) ++ [x01]
                    = node h (L k v)).
    { rewrite !firstn_app_exact by assumption. reflexivity. }
    assert (Htch : forall hh, hh <= h -> good hh (L k v) -> touchable h ks (hash_of hh (L k v))).
    { intros hh Hle Hgh. right. exists hh, (L k v). split; [exact Hle|]. split; [exact Hgh|]. split; [discriminate|].
      split; [reflexivity|]. intros x [<-|[]]. exact Hk. }
    assert (Htold : told <> E -> touchable h ks (hash_of h told)).
    { intros Hn. destruct Hgo as [|Hgo]; [contradiction|]. right. exists h, told. split; [lia|]. do 3 (split; [auto|]). exact Hkt. }
    assert (Hdsub : forall n, h' mod 4 = S n ->
      let nb1 := set2 is [] [] (set2 ni (k ++ [x02]) (v ++ [x02]) nb) in
      length nb1 = 31 /\ desc (S (S n)) ni h (L k v) nb1 /\
      (forall j, ~ sd (S (h' mod 4)) ni j -> slot j nb1 = slot j nb)).
    { intros n Hn nb1. rewrite Hn in Hbd, Hds, Hdo.
      assert (Hcs : 2 * is + 2 <= 30).
      { destruct His as [[-> _]|[-> _]].
        - apply child_l in Hbd. apply child_le in Hbd. exact Hbd.
        - apply child_r in Hbd. apply child_le in Hbd. exact Hbd. }
      assert (Hl2 : length (set2 ni (k ++ [x02]) (v ++ [x02]) nb) = 31) by (rewrite set2_length; exact Hlb).
      split; [unfold nb1; rewrite set2_length; exact Hl2|]. split.
      - assert (Hs1 : desc (S n) is h' E nb1).
        { apply (desc_clear _ _ _ k v); [exact Hl2 | exact Hcs|].
          eapply desc_frame; [|exact Hds]. intros j Hj.
          apply set2_ne; destruct His as [[-> _]|[-> _]];
          [apply sd_top_disjoint in Hj | apply sd_top_disjoint2 in Hj
          |apply sd_top_disjoint in Hj | apply sd_top_disjoint2 in Hj]; tauto. }
        assert (Hs2 : desc (S n) io h' E nb1).
        { eapply desc_frame; [|exact Hdo]. intros j Hj. unfold nb1.
          rewrite set2_ne.
          - apply set2_ne; destruct His as [[_ ->]|[_ ->]];
            [apply sd_top_disjoint2 in Hj | apply sd_top_disjoint in Hj
            |apply sd_top_disjoint2 in Hj | apply sd_top_disjoint in Hj]; tauto.
          - intros ->. destruct His as [[-> ->]|[-> ->]].
            + eapply (sd_disjoint (S n)); [|exact Hj|reflexivity]. cbn [sd]. auto.
            + eapply (sd_disjoint (S n) ni _ (S n)); [exact Hj| |reflexivity]. cbn [sd]. auto.
          - intros ->. destruct His as [[-> ->]|[-> ->]].
            + eapply (sd_disjoint (S n)); [|exact Hj|reflexivity]. cbn [sd]. auto.
            + eapply (sd_disjoint (S n) ni _ (S n)); [exact Hj| |reflexivity]. cbn [sd]. auto. }
        assert (Htop : slot (2 * ni + 1) nb1 = k ++ [x02] /\ slot (2 * ni + 2) nb1 = v ++ [x02]).
        { unfold nb1. rewrite !(set2_ne is) by lia. rewrite set2_l, set2_r by assumption. auto. }
        cbn [TrieStore.desc]. split; [exact Htop|]. cbn [ltree rtree pred].
        destruct His as [[-> ->]|[-> ->]]; split; assumption.
      - intros j Hj. unfold nb1. rewrite set2_ne.
        + rewrite Hn in Hj. apply (sd_set2 (S n)). exact Hj.
        + intros ->. apply Hj. rewrite Hn. cbn [sd]. destruct His as [[-> _]|[-> _]]; auto 10.
        + intros ->. apply Hj. rewrite Hn. cbn [sd]. destruct His as [[-> _]|[-> _]]; auto 10. }
    unfold move_up_shortcut. fold h.
    destruct (Nat.eq_dec (h' mod 4) 0) as [Hz|Hz].
    - (* the leaf has its own batch *)
      assert (Hni0 : ni <> 0) by (destruct (mod4_S h') as [[A B]|[A B]]; unfold h in *; lia).
      apply runs_bind. unfold load_children. rewrite Hz, Nat.eqb_refl. apply runs_bind.
      destruct (node h' (L k v)) as [|y nd] eqn:Hnd; [apply (node_nil H) in Hnd; discriminate|]. rewrite <- Hnd.
      destruct (load_batch_ok H Hlen limit G Hcf s h' (L k v) (node h' (L k v))) as
        (nb2 & s1 & Hq & (_ & _ & Hd2) & Hlv1 & Hu1 & Hrm1 & Hs1);
      [exact Hg' | discriminate | exact Hz | left; reflexivity | apply Hst; exact Hz | exact Hl|].
      exists nb2, s1. split; [exact Hq|]. apply runs_ret. cbv beta iota.
      destruct Hd2 as ((Hk2 & Hv2) & _). cbn [Nat.mul Nat.add] in Hk2, Hv2.
      change (2 * 0 + 1) with 1 in Hk2. change (2 * 0 + 2) with 2 in Hv2. rewrite Hk2, Hv2, Hnode.
      apply Nat.eqb_neq in Hni0 as Hnib. rewrite Hnib.
      apply runs_bind. eapply runs_mono; [|apply delete_old_ok]. cbv beta. intros _ s' (Hs2 & Hrm2 & Hu2 & Hlv2).
      apply runs_ret. fold (set2 ni (k ++ [x02]) (v ++ [x02]) nb). split; [reflexivity|]. split; [reflexivity|].
      split; [rewrite set2_length; exact Hlb|]. split; [|split; [|split; [|split]]].
      + intros _. split; [|intros j Hj; eapply sd_set2; exact Hj].
        apply desc_set2; auto; exact I.
      + cbn [TrieStore.stored]. intros Hm. exfalso. tauto.
      + apply Hlv2. exact Hlv1.
      + split; [congruence|]. intros x. rewrite (to_hash_node H Hlen) in Hu2 by discriminate.
        destruct (beqb_spec x (hash_of h' (L k v))) as [->|Hx]; [left; apply Htch; [lia | exact Hg']|].
        right. rewrite Hu2 by exact Hx. rewrite Hu1. reflexivity.
      + congruence.
    - (* in the same batch *)
      destruct (h' mod 4) as [|n] eqn:Hn; [congruence|]. specialize (Hdsub n eq_refl).
      cbv zeta in Hdsub. unfold set2 at 1 4 6 in Hdsub. destruct Hdsub as (D1 & D2 & D3).
      fold (set2 is [] [] (set2 ni (k ++ [x02]) (v ++ [x02]) nb)) in D1, D2, D3.
      apply runs_bind. unfold load_children. rewrite Hn. cbn [Nat.eqb].
      apply runs_ret. destruct Hds as ((Hk2 & Hv2) & _). rewrite Hk2, Hv2, Hnode.
      destruct (Nat.eqb_spec ni 0) as [Hz0|Hz0].
      + assert (Hm : h mod 4 = 0) by tauto.
        subst ni. change (2 * 0 + 1) with 1 in *. change (2 * 0 + 2) with 2 in *.
        set (nb1 := set2 is [] [] (set2 0 (k ++ [x02]) (v ++ [x02]) nb)) in *.
        set (nb2 := set2 is [] [] (set2 0 (k ++ [x02]) (v ++ [x02]) (set_nth 0 [x01] nb))).
        assert (Hsl : forall j, slot j nb2 = if Nat.eqb j 0 then [x01] else slot j nb1).
        { intros j. unfold nb1, nb2, set2.
          assert (Hb1 : length (set_nth 0 [x01] nb) = 31) by (rewrite set_nth_length; exact Hlb).
          destruct (Nat.eqb_spec j 0) as [->|Hj].
          - rewrite !slot_set_ne by lia. apply slot_set_eq; [exact Hlb | lia].
          - assert (Hcs : 2 * is + 2 <= 30) by (destruct His as [[-> _]|[-> _]]; cbv; lia).
            rewrite !slot_set by (rewrite ?set_nth_length; lia).
            destruct (Nat.eqb_spec j 0); [contradiction|]. reflexivity. }
        assert (Hb2 : batch_ok nb2 h (L k v)).
        { split; [unfold nb2; rewrite !set2_length, set_nth_length; exact Hlb|]. split; [apply Hsl|].
          assert (Hn3 : S (S n) = 4) by (destruct (mod4_S h') as [[A B]|[A B]]; unfold h in *; lia).
          rewrite <- Hn3. eapply desc_frame; [|exact D2]. intros j Hj. apply sd_gt in Hj. rewrite Hsl.
          destruct (Nat.eqb_spec j 0); [lia|reflexivity]. }
        apply runs_bind.
        eapply runs_mono; [|eapply (store_node_ok nb2 h (L k v) told root s); eauto; discriminate].
        cbv beta. intros _ s' (Hhas & Hlv2 & Hs & Hrm & Hu). apply runs_ret.
        split; [reflexivity|]. split; [reflexivity|]. split; [apply Hb2|]. split; [congruence|].
        split; [intros _; exact Hhas|]. split; [exact Hlv2|]. split; [|exact Hrm].
        split; [exact Hs|]. intros x. destruct (Hu x) as [->|[->|[[Hte ->]|Hq]]].
        * left. left. reflexivity.
        * left. apply Htch; [lia | exact Hg].
        * left. apply Htold. exact Hte.
        * right. exact Hq.
      + apply runs_ret. split; [reflexivity|]. split; [reflexivity|]. split; [exact D1|].
        split; [intros _; split; [exact D2 | exact D3]|]. split; [|split; [exact Hl | split; [apply frame_refl | reflexivity]]].
        cbn [TrieStore.stored]. intros Hm. exfalso. tauto.
  Qed.

  Lemma good_E h : good h E.
  Proof. split; [exact I | intros x []]. Qed.
  Lemma node_cons h t : t <> E -> exists y ys, node h t = y :: ys.
  Proof.
    intros Hne. destruct (node h t) as [|y ys] eqn:Hn; [apply (node_nil H) in Hn; contradiction|]. eauto.
  Qed.
  Lemma touch_tree h ks t : good h t -> t <> E -> incl (tkeys t) ks -> touchable h ks (hash_of h t).
  Proof. intros Hg Hne Hk. right. exists h, t. split; [lia|]. do 3 (split; [auto|]). exact Hk. Qed.

  (** ** interiorHash *)
  Lemma interior_ok h' lt rt told root nb ni ks s :
    let h := S h' in
    length nb = 31 -> (ni + 2) * 2 ^ S (h' mod 4) <= 32 -> (ni = 0 <-> h mod 4 = 0) ->
    desc (h' mod 4) (2 * ni + 1) h' lt nb -> desc (h' mod 4) (2 * ni + 2) h' rt nb ->
    good h (N lt rt) -> good h told -> N lt rt <> told -> rootlike h told root ->
    stored s h' lt -> stored s h' rt -> live_ok s -> incl (tkeys lt) ks -> incl (tkeys rt) ks -> incl (tkeys told) ks ->
    runs (interior_hash H limit atomic (node h' lt) (node h' rt) root nb ni h) s (fun r s' =>
      let '(nd, nb') := r in
      nd = node h (N lt rt) /\ length nb' = 31 /\
      (h mod 4 <> 0 -> desc (S (h' mod 4)) ni h (N lt rt) nb' /\
                       forall j, ~ sd (S (h' mod 4)) ni j -> slot j nb' = slot j nb) /\
      stored s' h (N lt rt) /\ live_ok s' /\ frame h ks s s' /\ removed s' = removed s).
  Proof.
    intros h Hlb Hbd Hni Hdl Hdr Hg Hgo Hne Hr Hsl Hsr Hl Hkl Hkr Hkt.
    pose proof (child_le _ _ Hbd) as Hc. destruct (good_N H G _ _ _ Hg) as [Gl Gr]. cbn [pred] in Gl, Gr.
    assert (Hnode : match node h' lt, node h' rt with
             | [], _ => H (DefaultLeaf ++ firstn HashLength (node h' rt))
             | _, [] => H (firstn HashLength (node h' lt) ++ DefaultLeaf)
             | _, _ => H (firstn HashLength (node h' lt) ++ firstn HashLength (node h' rt))
             end ++ [x00] = node h (N lt rt)).
    { rewrite !(node_firstn H Hlen).
      change (node h (N lt rt)) with (H (inner_string (hash_of h' lt) (hash_of h' rt)) ++ [x00]). f_equal.
      assert (Hcase : lt <> E \/ rt <> E) by apply Hg.
      assert (Hd : forall t, (t = E /\ node h' t = [] /\ hash_of h' t = []) \/
                    (t <> E /\ (exists y ys, node h' t = y :: ys) /\ exists y ys, hash_of h' t = y :: ys)).
      { intros t. destruct (hash_of h' t) as [|y ys] eqn:Hh.
        - apply (hash_nil H Hlen) in Hh. subst t. left. auto.
        - right. assert (t <> E) by (intros ->; discriminate). split; [assumption|]. split; [apply node_cons; assumption|eauto]. }
      destruct (Hd lt) as [(-> & A1 & A2)|(Hlne & (y1 & ys1 & A1) & (z1 & zs1 & A2))];
      destruct (Hd rt) as [(-> & B1 & B2)|(Hrne & (y2 & ys2 & B1) & (z2 & zs2 & B2))];
      rewrite ?A1, ?A2, ?B1, ?B2; try reflexivity.
      exfalso. tauto. }
    unfold interior_hash. cbv zeta. rewrite Hnode, set_swap.
    assert (Hb : desc (S (h' mod 4)) ni h (N lt rt) (set2 ni (node h' lt) (node h' rt) nb)).
    { apply desc_set2; auto. }
    destruct (Nat.eqb_spec (h mod 4) 0) as [Hm|Hm].
    - assert (ni = 0) by tauto. subst ni.
      assert (Hm3 : h' mod 4 = 3) by (destruct (mod4_S h') as [[A B]|[A B]]; [exact B | unfold h in *; lia]).
      assert (Hok : batch_ok (set_nth 0 [x00] (set2 0 (node h' lt) (node h' rt) nb)) h (N lt rt)).
      { split; [rewrite set_nth_length, set2_length; exact Hlb|]. split.
        - apply slot_set_eq; [rewrite set2_length; exact Hlb | lia].
        - rewrite Hm3 in Hb. eapply desc_frame; [|exact Hb]. intros j Hj. apply sd_gt in Hj.
          apply slot_set_ne. lia. }
      apply runs_bind. eapply runs_mono; [|eapply (store_node_ok _ h (N lt rt) told root s); eauto; discriminate].
      cbv beta. intros _ s' (Hhas & Hlv & Hs & Hrm & Hu). apply runs_ret.
      split; [reflexivity|]. split; [apply Hok|]. split; [congruence|].
      assert (Hup : forall x, (x = zero_hash \/ exists h2 t2, h' < h2 /\ good h2 t2 /\ t2 <> E /\ hash_of h2 t2 = x) \/
                              updated s' x = updated s x).
      { intros x. destruct (Hu x) as [->|[->|[[Hte ->]|Hq]]]; [auto| | |auto]; left; right.
        - exists h, (N lt rt). split; [unfold h; lia|]. split; [exact Hg|]. split; [discriminate | reflexivity].
        - exists h, told. split; [unfold h; lia|]. auto. }
      split; [|split; [exact Hlv | split; [|exact Hrm]]].
      + cbn [TrieStore.stored]. split; [auto|]. change (pred h) with h'.
        split; (eapply frame_stored_height; [| |exact Hup|]; assumption).
      + split; [exact Hs|]. intros x. destruct (Hu x) as [->|[->|[[Hte ->]|Hq]]].
        * left. left. reflexivity.
        * left. apply touch_tree; [exact Hg | discriminate | apply incl_app; assumption].
        * left. apply touch_tree; assumption.
        * right. exact Hq.
    - apply runs_ret. split; [reflexivity|]. split; [rewrite set2_length; exact Hlb|].
      split; [intros _; split; [exact Hb | intros j Hj; eapply sd_set2; exact Hj]|].
      split; [|split; [exact Hl | split; [apply frame_refl | reflexivity]]].
      cbn [TrieStore.stored]. split; [tauto|]. auto.
  Qed.

  (** ** The common tail of the update functions *)
  Lemma finish_ok h' lt rt del told root nb ni ks s :
    let h := S h' in let t' := collapse lt rt in
    length nb = 31 -> (ni + 2) * 2 ^ S (h' mod 4) <= 32 -> (ni = 0 <-> h mod 4 = 0) ->
    desc (h' mod 4) (2 * ni + 1) h' lt nb -> desc (h' mod 4) (2 * ni + 2) h' rt nb ->
    good h' lt -> good h' rt -> good h t' -> (del = false -> t' = N lt rt) ->
    good h told -> t' <> told -> rootlike h told root ->
    stored s h' lt -> stored s h' rt -> live_ok s -> incl (tkeys lt) ks -> incl (tkeys rt) ks -> incl (tkeys told) ks ->
    runs (finish H limit atomic (node h' lt) (node h' rt) del root nb ni h') s (fun r s' =>
      let '(nd, d, nb') := r in
      nd = node h t' /\ (d = false -> t' = N lt rt) /\ length nb' = 31 /\
      (h mod 4 <> 0 -> desc (S (h' mod 4)) ni h t' nb' /\
                       forall j, ~ sd (S (h' mod 4)) ni j -> slot j nb' = slot j nb) /\
      stored s' h t' /\ live_ok s' /\ frame h ks s s' /\ removed s' = removed s).
  Proof.
    intros h t' Hlb Hbd Hni Hdl Hdr Gl Gr Hg Hdel Hgo Hne Hr Hsl Hsr Hl Hkl Hkr Hkt.
    pose proof (child_le _ _ Hbd) as Hc.
    assert (Hhash : t' = N lt rt ->
      runs ('(nd, b) <- interior_hash H limit atomic (node h' lt) (node h' rt) root nb ni (S h');; ret (nd, false, b)) s
        (fun r s' => let '(nd, d, nb') := r in
          nd = node h t' /\ (d = false -> t' = N lt rt) /\ length nb' = 31 /\
          (h mod 4 <> 0 -> desc (S (h' mod 4)) ni h t' nb' /\
                       forall j, ~ sd (S (h' mod 4)) ni j -> slot j nb' = slot j nb) /\
          stored s' h t' /\ live_ok s' /\ frame h ks s s' /\ removed s' = removed s)).
    { intros Ht. apply runs_bind. rewrite Ht in *.
      eapply runs_mono; [|eapply (interior_ok h' lt rt told root nb ni ks s); assumption].
      cbv beta. intros [nd nb'] s' (A1 & A2 & A3 & A4). apply runs_ret. auto. }
    unfold finish. cbv zeta. destruct del; [|apply Hhash; auto].
    apply runs_bind. unfold maybe_move_up.
    destruct lt as [|kl vl|ll lr].
    - (* left empty *)
      destruct rt as [|kr vr|rl rr].
      + (* both empty *)
        cbn [TrieStore.node]. destruct (Nat.eqb_spec ni 0) as [Hz|Hz].
        * apply runs_bind. eapply runs_mono; [|apply delete_old_ok]. cbv beta.
          intros _ s' (Hs2 & Hrm2 & Hu2 & Hlv2). apply runs_ret. apply runs_ret.
          split; [reflexivity|]. split; [discriminate|]. split; [exact Hlb|]. split; [tauto|].
          split; [exact I|]. split; [auto|]. split; [|exact Hrm2]. split; [exact Hs2|]. intros x.
          destruct (beqb_spec x (to_hash root)) as [->|Hx]; [|right; apply Hu2; exact Hx]. left.
          destruct (root_touch _ _ _ Hr) as [[_ ->]|[Ht ->]]; [left; reflexivity|].
          apply touch_tree; assumption.
        * apply runs_ret. apply runs_ret.
          change (set_nth (2 * ni + 2) [] (set_nth (2 * ni + 1) [] nb)) with (set2 ni [] [] nb).
          split; [reflexivity|]. split; [discriminate|]. split; [rewrite set2_length; exact Hlb|].
          split; [intros _; split; [change t' with E; apply desc_set2; auto | intros j Hj; eapply sd_set2; exact Hj]|].
          split; [exact I|]. split; [exact Hl|]. split; [apply frame_refl | reflexivity].
      + (* right leaf *)
        pose proof (node_flag H Hlen h' (L kr vr) ltac:(discriminate)) as Hf.
        destruct (node_cons h' (L kr vr) ltac:(discriminate)) as (y & ys & Hnd).
        rewrite Hnd in *. rewrite Hf. cbn [is_leaf]. rewrite beqb_refl, <- Hnd. apply runs_bind.
        eapply runs_mono; [|eapply (move_up_ok h' kr vr told root nb ni (2 * ni + 2) (2 * ni + 1) ks s); auto].
        * cbv beta. intros [[nd d] nb'] s' (A1 & -> & A3). apply runs_ret. apply runs_ret.
          split; [exact A1|]. split; [discriminate|]. exact A3.
        * apply Hkr. simpl. auto.
      + pose proof (node_flag H Hlen h' (N rl rr) ltac:(discriminate)) as Hf.
        destruct (node_cons h' (N rl rr) ltac:(discriminate)) as (y & ys & Hnd).
        rewrite Hnd in *. rewrite Hf. cbn [is_leaf]. apply runs_ret. rewrite <- Hnd in *.
        apply Hhash. reflexivity.
    - pose proof (node_flag H Hlen h' (L kl vl) ltac:(discriminate)) as Hf.
      destruct (node_cons h' (L kl vl) ltac:(discriminate)) as (y & ys & Hnd).
      rewrite Hnd in *.
      destruct rt as [|kr vr|rl rr].
      + rewrite Hf. cbn [is_leaf TrieStore.node]. rewrite beqb_refl, <- Hnd. apply runs_bind.
        eapply runs_mono; [|eapply (move_up_ok h' kl vl told root nb ni (2 * ni + 1) (2 * ni + 2) ks s); auto].
        * cbv beta. intros [[nd d] nb'] s' (A1 & -> & A3). apply runs_ret. apply runs_ret.
          split; [exact A1|]. split; [discriminate|]. exact A3.
        * apply Hkl. simpl. auto.
      + destruct (node_cons h' (L kr vr) ltac:(discriminate)) as (z & zs & Hnd2). rewrite Hnd2 in *.
        apply runs_ret. rewrite <- Hnd, <- Hnd2 in *. apply Hhash. reflexivity.
      + destruct (node_cons h' (N rl rr) ltac:(discriminate)) as (z & zs & Hnd2). rewrite Hnd2 in *.
        apply runs_ret. rewrite <- Hnd, <- Hnd2 in *. apply Hhash. reflexivity.
    - pose proof (node_flag H Hlen h' (N ll lr) ltac:(discriminate)) as Hf.
      destruct (node_cons h' (N ll lr) ltac:(discriminate)) as (y & ys & Hnd).
      rewrite Hnd in *.
      destruct rt as [|kr vr|rl rr].
      + rewrite Hf. cbn [is_leaf TrieStore.node]. apply runs_ret. rewrite <- Hnd in *. apply Hhash. reflexivity.
      + destruct (node_cons h' (L kr vr) ltac:(discriminate)) as (z & zs & Hnd2). rewrite Hnd2 in *.
        apply runs_ret. rewrite <- Hnd, <- Hnd2 in *. apply Hhash. reflexivity.
      + destruct (node_cons h' (N rl rr) ltac:(discriminate)) as (z & zs & Hnd2). rewrite Hnd2 in *.
        apply runs_ret. rewrite <- Hnd, <- Hnd2 in *. apply Hhash. reflexivity.
  Qed.

  (** ** leafHash *)
  Lemma leaf_ok h' k v told root nb ni ks s :
    let h := S h' in
    length nb = 31 -> (ni + 2) * 2 ^ S (h' mod 4) <= 32 -> (ni = 0 <-> h mod 4 = 0) ->
    desc (S (h' mod 4)) ni h E nb ->
    good h (L k v) -> good h told -> L k v <> told -> rootlike h told root ->
    live_ok s -> In k ks -> incl (tkeys told) ks ->
    runs (leaf_hash H limit atomic k v root nb ni h) s (fun r s' =>
      let '(nd, nb') := r in
      nd = node h (L k v) /\ length nb' = 31 /\
      (h mod 4 <> 0 -> desc (S (h' mod 4)) ni h (L k v) nb' /\
                       forall j, ~ sd (S (h' mod 4)) ni j -> slot j nb' = slot j nb) /\
      stored s' h (L k v) /\ live_ok s' /\ frame h ks s s' /\ removed s' = removed s).
  Proof.
    intros h Hlb Hbd Hni (_ & Hdl & Hdr) Hg Hgo Hne Hr Hl Hk Hkt.
    pose proof (child_le _ _ Hbd) as Hc.
    unfold leaf_hash. cbv zeta. rewrite set_swap.
    change (H (k ++ v ++ [byte_of_nat h]) ++ [x01]) with (node h (L k v)).
    assert (Hb : desc (S (h' mod 4)) ni h (L k v) (set2 ni (k ++ [x02]) (v ++ [x02]) nb)).
    { apply desc_set2; auto. }
    destruct (Nat.eqb_spec (h mod 4) 0) as [Hm|Hm].
    - assert (ni = 0) by tauto. subst ni.
      assert (Hm3 : h' mod 4 = 3) by (destruct (mod4_S h') as [[A B]|[A B]]; [exact B | unfold h in *; lia]).
      assert (Hok : batch_ok (set_nth 0 [x01] (set2 0 (k ++ [x02]) (v ++ [x02]) nb)) h (L k v)).
      { split; [rewrite set_nth_length, set2_length; exact Hlb|]. split.
        - apply slot_set_eq; [rewrite set2_length; exact Hlb | lia].
        - rewrite Hm3 in Hb. eapply desc_frame; [|exact Hb]. intros j Hj. apply sd_gt in Hj.
          apply slot_set_ne. lia. }
      apply runs_bind. eapply runs_mono; [|eapply (store_node_ok _ h (L k v) told root s); eauto; discriminate].
      cbv beta. intros _ s' (Hhas & Hlv & Hs & Hrm & Hu). apply runs_ret.
      split; [reflexivity|]. split; [apply Hok|]. split; [congruence|].
      split; [intros _; exact Hhas|]. split; [exact Hlv|]. split; [|exact Hrm]. split; [exact Hs|].
      intros x. destruct (Hu x) as [->|[->|[[Hte ->]|Hq]]].
      + left. left. reflexivity.
      + left. apply touch_tree; [exact Hg | discriminate|]. intros x [<-|[]]. exact Hk.
      + left. apply touch_tree; assumption.
      + right. exact Hq.
    - apply runs_ret. split; [reflexivity|]. split; [rewrite set2_length; exact Hlb|].
      split; [intros _; split; [exact Hb | intros j Hj; eapply sd_set2; exact Hj]|].
      split; [|split; [exact Hl | split; [apply frame_refl | reflexivity]]].
      cbn [TrieStore.stored]. tauto.
  Qed.

  (** ** The recursive step *)
  Definition cont (h' : nat) (root : bytes) (b : batch) (ni : nat) (kvs : kvmap) (nb : batch) (lNode rNode : bytes)
    : M (bytes * bool * batch) :=
    let out (b' : batch) := if Nat.eqb (S h' mod 4) 0 then b else b' in
    match lNode, rNode, kvs with
    | [], [], [(k, v)] =>
        if beqb DefaultLeaf v then ret ([], true, out nb)
        else
          _ <- maybe_remove root (S h') ;;
          '(node, nb) <- leaf_hash H limit atomic k v root nb ni (S h') ;;
          ret (node, false, out nb)
    | _, _, _ =>
        let (lkvs, rkvs) := split_keys kvs (TrieHeight - S h') in
        _ <- maybe_remove root (S h') ;;
        match lkvs, rkvs with
        | [], _ :: _ =>
            '(r, del, nb) <- update h' rNode kvs nb (2 * ni + 2) ;;
            '(node, d, nb) <- finish H limit atomic lNode r del root nb ni h' ;;
            ret (node, d, out nb)
        | _ :: _, [] =>
            '(l, del, nb) <- update h' lNode kvs nb (2 * ni + 1) ;;
            '(node, d, nb) <- finish H limit atomic l rNode del root nb ni h' ;;
            ret (node, d, out nb)
        | _, _ =>
            '(l, ldel, nb) <- update h' lNode lkvs nb (2 * ni + 1) ;;
            '(r, rdel, nb) <- update h' rNode rkvs nb (2 * ni + 2) ;;
            '(node, d, nb) <- finish H limit atomic l r (ldel || rdel) root nb ni h' ;;
            ret (node, d, out nb)
        end
    end.

  Lemma update_S h' root kv kvs b i :
    update (S h') root (kv :: kvs) b i =
    ('(nb, ni, lNode, rNode, isShortcut) <- load_children limit root (S h') i b ;;
     if isShortcut : bool then
       let kvs := maybe_add_shortcut (kv :: kvs) (firstn HashLength lNode) (firstn HashLength rNode) in
       _ <- (if Nat.eqb ni 0 then delete_old_node limit atomic root (S h') false else ret tt) ;;
       let nb := set_nth (2 * ni + 2) [] (set_nth (2 * ni + 1) [] nb) in
       match kvs with
       | [] => ret ([], true, if Nat.eqb (S h' mod 4) 0 then b else nb)
       | _ :: _ => cont h' root b ni kvs nb [] []
       end
     else cont h' root b ni (kv :: kvs) nb lNode rNode).
  Proof. destruct kv as [k v]. reflexivity. Qed.

  Definition inputs (h : nat) (m kvs : kvmap) : Prop :=
    dom h (keys m ++ keys kvs) /\ NoDup (keys m) /\ increasing (keys kvs) /\ vals_ok m /\ batch_vals kvs /\
    effective m kvs /\ ~ straddled m kvs /\ Gok h m /\ Gok h (over m kvs).

  Lemma inputs_side h b m kvs : 1 <= h -> inputs (S h) m kvs ->
    inputs h (side (TrieHeight - S h) b m) (side (TrieHeight - S h) b kvs).
  Proof.
    intros H1 (Hd & Hn & Hi & Hv & Hbv & He & Hs & G1 & G2).
    split; [apply dom_side; assumption|]. split; [apply side_NoDup; exact Hn|].
    split; [apply increasing_filter; exact Hi|]. split; [apply side_vals; exact Hv|].
    split; [apply batch_vals_side; exact Hbv|]. split; [apply effective_side; exact He|].
    split; [intros Hx; apply Hs; eapply straddled_side; [|exact Hx]; apply Hd|].
    split; [apply Gok_side; assumption|]. rewrite <- side_over. apply Gok_side; assumption.
  Qed.

  Lemma inputs_good h m kvs : inputs h m kvs -> good h (build h m) /\ good h (build h (over m kvs)).
  Proof.
    intros (Hd & Hn & Hi & Hv & Hbv & He & Hs & G1 & G2). split; apply build_good; auto.
    - eapply dom_incl; [|exact Hd]. apply incl_appl, incl_refl.
    - eapply dom_incl; [|exact Hd]. intros k Hk. apply over_keys_incl in Hk. exact Hk.
    - apply over_NoDup; [exact Hn | apply increasing_NoDup; exact Hi].
    - apply vals_ok_over; assumption.
  Qed.

  Lemma inputs_differ h m kvs : inputs h m kvs -> kvs <> [] -> build h (over m kvs) <> build h m.
  Proof.
    intros (Hd & Hn & Hi & Hv & Hbv & He & Hs & G1 & G2) Hne Hq.
    apply (build_inj h) in Hq; auto.
    - revert Hq. apply effective_changes; auto. apply increasing_NoDup; exact Hi.
    - eapply dom_incl; [|exact Hd]. intros k Hk. apply over_keys_incl in Hk. exact Hk.
    - apply over_NoDup; [exact Hn | apply increasing_NoDup; exact Hi].
    - eapply dom_incl; [|exact Hd]. apply incl_appl, incl_refl.
  Qed.

  (** Nodes scheduled for removal are no nodes of the new tree. *)
  Definition gone (h : nat) (ks : list bytes) (t' : tree) (x : bytes) : Prop :=
    (exists h2 t2, h2 <= h /\ good h2 t2 /\ t2 <> E /\ hash_of h2 t2 = x /\ incl (tkeys t2) ks) /\ ~ In x (nodes h t').

  Definition placed (h : nat) (t : tree) (b : batch) (i : nat) : Prop :=
    h mod 4 <> 0 -> i <> 0 /\ length b = 31 /\ (i + 2) * 2 ^ (h mod 4) <= 32 /\ slot i b = node h t /\
                    desc (h mod 4) i h t b.

  Definition post (h : nat) (ks : list bytes) (lm lm' : nat) (t' : tree) (b : batch) (i : nat) (s : cdb)
    (r : bytes * bool * batch) (s' : cdb) : Prop :=
    let '(nd, d, b') := r in
    nd = node h t' /\ (d = false -> 1 <= lm' /\ (2 <= lm -> 2 <= lm')) /\ length b' = length b /\
    desc (h mod 4) i h t' b' /\ (forall j, ~ sd (h mod 4) i j -> slot j b' = slot j b) /\
    stored s' h t' /\ live_ok s' /\ frame h ks s s' /\
    (forall x, removed s' x = true -> removed s x = true \/ gone h ks t' x).

  Definition update_spec (h : nat) : Prop := forall root m kvs b i s,
    inputs h m kvs -> kvs <> [] -> rootlike h (build h m) root -> placed h (build h m) b i ->
    stored s h (build h m) -> live_ok s ->
    runs (update h root kvs b i) s
         (post h (keys m ++ keys kvs) (length m) (length (over m kvs)) (build h (over m kvs)) b i s).

  Lemma maybe_remove_ok h told root s : rootlike h told root ->
    runs (maybe_remove root h) s (fun _ s' =>
      updated s' = updated s /\ store s' = store s /\ live s' = live s /\
      forall x, removed s' x = true -> removed s x = true \/ (told <> E /\ x = hash_of h told)).
  Proof.
    intros Hr. unfold maybe_remove. destruct (beqb_spec (to_hash root) zero_hash) as [Hz|Hz].
    - apply runs_ret. auto.
    - cbn [negb andb]. destruct (Nat.eqb (h mod 4) 0); [|apply runs_ret; auto].
      eexists. eexists. split; [reflexivity|]. cbn [updated store live removed].
      do 3 (split; [reflexivity|]). intros x. unfold map_set.
      destruct (beqb_spec x (to_hash root)) as [->|Hx]; [|auto]. intros _. right.
      destruct (root_touch _ _ _ Hr) as [[_ Hq]|[Ht Hq]]; [contradiction|auto].
  Qed.

  Lemma nodes_collapse h' lt rt x : good (S h') (collapse lt rt) -> In x (nodes (S h') (collapse lt rt)) ->
    x = hash_of (S h') (collapse lt rt) \/ In x (nodes h' lt) \/ In x (nodes h' rt).
  Proof.
    intros Hg. assert (Hn : forall l r, In x (nodes (S h') (N l r)) ->
      x = hash_of (S h') (N l r) \/ In x (nodes h' l) \/ In x (nodes h' r)).
    { intros l r. cbn [TrieStore.nodes pred]. rewrite !in_app_iff.
      destruct (Nat.eqb (S h' mod 4) 0); [intros [[<-|[]]|Hi]; auto | intros [[]|Hi]; auto]. }
    assert (Hlf : forall k v, In x (nodes (S h') (L k v)) -> x = hash_of (S h') (L k v)).
    { intros k v. cbn [TrieStore.nodes]. destruct (Nat.eqb (S h' mod 4) 0); [|intros []]. intros [<-|[]]. auto. }
    destruct lt as [|kl vl|ll lr], rt as [|kr vr|rl rr]; cbn [collapse]; intros Hi; auto.
  Qed.

  (** A node removed in one half is no node of the new tree. *)
  Lemma gone_up h' ks1 ks lt rt x :
    good (S h') (collapse lt rt) -> good h' lt -> good h' rt ->
    (forall k, In k ks1 -> In k (tkeys rt) -> False) -> incl ks1 ks ->
    gone h' ks1 lt x -> gone (S h') ks (collapse lt rt) x.
  Proof.
    intros Hg Gl Gr Hd Hi [(h2 & t2 & Hh & G2 & Hne & Hx & Hk) Hni].
    split; [exists h2, t2; split; [lia|]; do 3 (split; [assumption|]); eapply incl_tran; eauto|].
    intros Hin. apply nodes_collapse in Hin; [|exact Hg]. destruct Hin as [Hin|[Hin|Hin]]; [|auto|].
    - subst x. destruct (hash_inj H Hlen G Hcf _ _ _ _ G2 Hg Hne Hin) as [_ ->]. lia.
    - destruct (nodes_good H G h' rt x Gr Hin) as (h3 & t3 & _ & G3 & Hne3 & _ & Hx3 & Hk3 & _).
      rewrite <- Hx3 in Hx. destruct (hash_inj H Hlen G Hcf _ _ _ _ G2 G3 Hne Hx) as [-> ->].
      destruct (tkeys_nonempty _ _ (proj1 G3) Hne3) as (k & Hkk). eapply Hd; eauto.
  Qed.
  Lemma collapse_nodes_sym h' lt rt x : good (S h') (collapse lt rt) -> good h' lt -> good h' rt ->
    forall ks1 ks, (forall k, In k ks1 -> In k (tkeys lt) -> False) -> incl ks1 ks ->
    gone h' ks1 rt x -> gone (S h') ks (collapse lt rt) x.
  Proof.
    intros Hg Gl Gr ks1 ks Hd Hi [(h2 & t2 & Hh & G2 & Hne & Hx & Hk) Hni].
    split; [exists h2, t2; split; [lia|]; do 3 (split; [assumption|]); eapply incl_tran; eauto|].
    intros Hin. apply nodes_collapse in Hin; [|exact Hg]. destruct Hin as [Hin|[Hin|Hin]]; [| |auto].
    - subst x. destruct (hash_inj H Hlen G Hcf _ _ _ _ G2 Hg Hne Hin) as [_ ->]. lia.
    - destruct (nodes_good H G h' lt x Gl Hin) as (h3 & t3 & _ & G3 & Hne3 & _ & Hx3 & Hk3 & _).
      rewrite <- Hx3 in Hx. destruct (hash_inj H Hlen G Hcf _ _ _ _ G2 G3 Hne Hx) as [-> ->].
      destruct (tkeys_nonempty _ _ (proj1 G3) Hne3) as (k & Hkk). eapply Hd; eauto.
  Qed.

  Lemma root_gone h ks told t' : good h told -> told <> E -> good h t' -> t' <> told -> incl (tkeys told) ks ->
    gone h ks t' (hash_of h told).
  Proof.
    intros Hg Hne Hg' Hd Hk. split; [exists h, told; split; [lia|]; do 3 (split; [auto|]); exact Hk|].
    intros Hin. destruct (nodes_good H G h t' _ Hg' Hin) as (h3 & t3 & _ & G3 & Hne3 & _ & Hx3 & Hk3 & Heq).
    destruct (hash_inj H Hlen G Hcf _ _ _ _ G3 Hg Hne3 Hx3) as [-> ->]. apply Hd. symmetry. auto.
  Qed.

  Lemma children h' m0 : m0 = [] \/ 2 <= length m0 ->
    let n := TrieHeight - S h' in
    build h' (side n false m0) = ltree (build (S h') m0) /\ build h' (side n true m0) = rtree (build (S h') m0) /\
    is_leaf (build (S h') m0) = false.
  Proof.
    intros [->|Hl] n.
    - destruct h'; auto.
    - rewrite build_S by exact Hl. auto.
  Qed.

  Lemma desc_children n ni h' t nb : is_leaf t = false -> desc (S n) ni (S h') t nb ->
    slot (2 * ni + 1) nb = node h' (ltree t) /\ slot (2 * ni + 2) nb = node h' (rtree t) /\
    desc n (2 * ni + 1) h' (ltree t) nb /\ desc n (2 * ni + 2) h' (rtree t) nb.
  Proof.
    intros Hlf (Ht & Hl & Hr). cbn [pred] in *. destruct t as [|k v|l r]; [|discriminate|]; destruct Ht; auto.
  Qed.

  Lemma side_key_disjoint n ks1 ks2 k (m1 m2 : kvmap) b : 
    incl ks1 (keys (side n b m1) ++ keys (side n b m2)) ->
    forall m3, incl ks2 (keys (side n (negb b) m3)) -> In k ks1 -> In k ks2 -> False.
  Proof.
    intros H1 m3 H2 I1 I2. apply H1 in I1. apply H2 in I2. apply in_app_iff in I1.
    rewrite !in_side_keys in I1. apply in_side_keys in I2. destruct b; destruct I2 as [_ I2]; simpl in I2;
    destruct I1 as [[_ I1]|[_ I1]]; congruence.
  Qed.

  Lemma frame_eq_trans h ks s s1 s2 : store s1 = store s -> updated s1 = updated s -> frame h ks s1 s2 -> frame h ks s s2.
  Proof. intros Hs Hu. apply frame_trans. apply frame_same; assumption. Qed.

  Lemma side_incl_ks n b m kvs ks : incl (keys m ++ keys kvs) ks ->
    incl (keys (side n b m) ++ keys (side n b kvs)) ks.
  Proof.
    intros Hi x Hx. apply Hi. apply in_app_iff in Hx. apply in_app_iff.
    destruct Hx as [Hx|Hx]; apply side_keys_incl in Hx; auto.
  Qed.

  Lemma over_tkeys h m kvs : incl (tkeys (build h (over m kvs))) (keys m ++ keys kvs).
  Proof. intros k Hk. apply build_tkeys in Hk. apply over_keys_incl in Hk. exact Hk. Qed.

  Lemma build_N_len h m l r : build h m = N l r -> 2 <= length m.
  Proof. destruct m as [|[k v] [|kv m]]; [destruct h; discriminate | destruct h; discriminate | simpl; lia]. Qed.
  Lemma collapse_N lt rt : lt <> E -> rt <> E -> collapse lt rt = N lt rt.
  Proof. intros Hl Hr. destruct lt, rt; try reflexivity; congruence. Qed.
  Lemma tree_E_dec (t : tree) : t = E \/ t <> E.
  Proof. destruct t; auto; right; discriminate. Qed.
  Lemma build_two h' m : 2 <= length m -> exists l r, build (S h') m = N l r.
  Proof. intros Hl. rewrite build_S by exact Hl. eauto. Qed.

  Lemma cont_ok h' root m0 kvs0 told b i nb ni lm ks s :
    update_spec h' ->
    let h := S h' in let t0 := build h m0 in
    (m0 = [] \/ 2 <= length m0) -> inputs h m0 kvs0 -> kvs0 <> [] -> (m0 = [] -> lm <= 1) ->
    good h told -> build h (over m0 kvs0) <> told -> rootlike h told root ->
    incl (tkeys told) ks -> incl (keys m0 ++ keys kvs0) ks ->
    length nb = 31 -> (ni + 2) * 2 ^ S (h' mod 4) <= 32 -> (ni = 0 <-> h mod 4 = 0) ->
    desc (S (h' mod 4)) ni h t0 nb ->
    (h mod 4 <> 0 -> ni = i /\ length b = 31 /\ forall j, ~ sd (h mod 4) i j -> slot j nb = slot j b) ->
    stored s h' (ltree t0) -> stored s h' (rtree t0) -> live_ok s ->
    runs (cont h' root b ni kvs0 nb (node h' (ltree t0)) (node h' (rtree t0))) s
         (post h ks lm (length (over m0 kvs0)) (build h (over m0 kvs0)) b i s).
  Proof.
    intros IH h t0 Hm0 Hin Hkne Hlm Hgo Hne Hr Hkt Hks Hlb Hbd Hni Hds Hb Hsl Hsr Hl.
    set (t' := build h (over m0 kvs0)) in *. set (n := TrieHeight - S h').
    pose proof (child_le _ _ Hbd) as Hc.
    destruct (inputs_good _ _ _ Hin) as [Hg0 Hg']. fold t' in Hg'.
    pose proof (children h' m0 Hm0) as Ch. cbv zeta in Ch. change (TrieHeight - S h') with n in Ch.
    change (build (S h') m0) with t0 in Ch. destruct Ch as (Cl & Cr & Clf).
    destruct (desc_children _ _ _ _ _ Clf Hds) as (Sl & Sr & Dl & Dr).
    assert (Hkt' : incl (tkeys t') ks) by (eapply incl_tran; [apply over_tkeys | exact Hks]).
    assert (Hmod : h mod 4 <> 0 -> h mod 4 = S (h' mod 4)).
    { intros Hm. destruct (mod4_S h') as [[A B]|[A B]]; [unfold h in *; lia | exact B]. }
    (* results of the last call, seen from the caller *)
    assert (Hlast : forall (d : bool) nb' s',
      length nb' = 31 -> (d = false -> 1 <= length (over m0 kvs0) /\ (2 <= lm -> 2 <= length (over m0 kvs0))) ->
      (h mod 4 <> 0 -> desc (S (h' mod 4)) ni h t' nb' /\
                       forall j, ~ sd (S (h' mod 4)) ni j -> slot j nb' = slot j nb) ->
      stored s' h t' -> live_ok s' -> frame h ks s s' ->
      (forall x, removed s' x = true -> removed s x = true \/ gone h ks t' x) ->
      post h ks lm (length (over m0 kvs0)) t' b i s (node h t', d, if Nat.eqb (S h' mod 4) 0 then b else nb') s').
    { intros d nb' s' L1 L2 L3 L4 L5 L6 L7. split; [reflexivity|]. split; [exact L2|]. fold h.
      destruct (Nat.eqb_spec (h mod 4) 0) as [Hm|Hm].
      - rewrite Hm. do 3 (split; [solve [auto | exact I | reflexivity]|]). auto.
      - destruct (Hb Hm) as (<- & Hlb0 & Hout). destruct (L3 Hm) as [L3a L3b]. rewrite (Hmod Hm) in *.
        split; [congruence|]. split; [exact L3a|]. split; [intros j Hj; rewrite L3b by exact Hj; apply Hout; exact Hj|].
        auto. }
    assert (Hleaf : forall k v, m0 = [] -> kvs0 = [(k, v)] ->
       runs (if beqb DefaultLeaf v then ret ([], true, if Nat.eqb (S h' mod 4) 0 then b else nb)
             else _ <- maybe_remove root (S h') ;;
                  '(node, nb) <- leaf_hash H limit atomic k v root nb ni (S h') ;;
                  ret (node, false, if Nat.eqb (S h' mod 4) 0 then b else nb)) s
            (post h ks lm (length (over m0 kvs0)) t' b i s)).
    { intros k v Hm Hk. assert (Heff : v <> DefaultLeaf).
      { destruct Hin as (_ & _ & _ & _ & _ & He & _). intros Hv. destruct (He k v) as [_ He2];
        [rewrite Hk; simpl; auto|]. apply He2 in Hv. rewrite Hm in Hv. destruct Hv. }
      assert (Hov : over m0 kvs0 = [(k, v)]).
      { rewrite Hm, Hk, over_nil. cbn [filter snd]. apply beqb_neq in Heff. rewrite Heff. reflexivity. }
      assert (Ht' : t' = L k v) by (unfold t'; rewrite Hov; reflexivity).
      destruct (beqb_spec DefaultLeaf v) as [Hv|_]; [congruence|].
      apply runs_bind. eapply runs_mono; [|apply maybe_remove_ok; exact Hr]. cbv beta.
      intros _ s1 (Hu1 & Hs1 & Hl1 & Hr1). apply runs_bind.
      eapply runs_mono; [|eapply (leaf_ok h' k v told root nb ni ks s1); auto].
      - cbv beta. intros [nd nb'] s' (-> & A2 & A3 & A4 & A5 & A6 & A7). apply runs_ret. rewrite <- Ht'. apply Hlast; auto.
        + intros _. rewrite Hov. simpl. specialize (Hlm Hm). lia.
        + rewrite Ht'. exact A3.
        + rewrite Ht'. exact A4.
        + eapply frame_eq_trans; [| |exact A6]; assumption.
        + intros x Hx. rewrite A7 in Hx. apply Hr1 in Hx as [Hx|[Hte ->]]; [auto|]. right.
          apply root_gone; auto.
      - assert (t0 = E) as <- by (unfold t0; rewrite Hm; reflexivity). exact Hds.
      - rewrite <- Ht'. exact Hg'.
      - rewrite <- Ht'. exact Hne.
      - intros x b0 Hx. rewrite Hl1, Hu1 in Hx. eapply Hl; exact Hx.
      - apply Hks. rewrite Hk. apply in_app_iff. simpl. auto. }
    (* otherwise there are two keys *)
    assert (Hgen : (2 <= length m0 \/ m0 = [] /\ 2 <= length kvs0) ->
      runs (let (lkvs, rkvs) := split_keys kvs0 (TrieHeight - S h') in
        _ <- maybe_remove root (S h') ;;
        match lkvs, rkvs with
        | [], _ :: _ =>
            '(r, del, nb) <- update h' (node h' (rtree t0)) kvs0 nb (2 * ni + 2) ;;
            '(node, d, nb) <- finish H limit atomic (node h' (ltree t0)) r del root nb ni h' ;;
            ret (node, d, if Nat.eqb (S h' mod 4) 0 then b else nb)
        | _ :: _, [] =>
            '(l, del, nb) <- update h' (node h' (ltree t0)) kvs0 nb (2 * ni + 1) ;;
            '(node, d, nb) <- finish H limit atomic l (node h' (rtree t0)) del root nb ni h' ;;
            ret (node, d, if Nat.eqb (S h' mod 4) 0 then b else nb)
        | _, _ =>
            '(l, ldel, nb) <- update h' (node h' (ltree t0)) lkvs nb (2 * ni + 1) ;;
            '(r, rdel, nb) <- update h' (node h' (rtree t0)) rkvs nb (2 * ni + 2) ;;
            '(node, d, nb) <- finish H limit atomic l r (ldel || rdel) root nb ni h' ;;
            ret (node, d, if Nat.eqb (S h' mod 4) 0 then b else nb)
        end) s (post h ks lm (length (over m0 kvs0)) t' b i s)).
    { intros Htwo. pose proof Hin as (Hdom & Hnd & Hinc & Hv & Hbv & He & Hst & G1 & G2).
      assert (Hkn : NoDup (keys kvs0)) by (apply increasing_NoDup; exact Hinc).
      assert (Hh' : 1 <= h').
      { destruct Htwo as [Ht|[_ Ht]].
        - pose proof (dom_two h m0) as Hd2. enough (2 <= h) by (unfold h in *; lia). apply Hd2; auto.
          eapply dom_incl; [|exact Hdom]. apply incl_appl, incl_refl.
        - pose proof (dom_two h kvs0) as Hd2. enough (2 <= h) by (unfold h in *; lia). apply Hd2; auto.
          eapply dom_incl; [|exact Hdom]. apply incl_appr, incl_refl. }
      assert (Hov0 : m0 = [] -> over m0 kvs0 = kvs0).
      { intros Hm. rewrite Hm, over_nil. apply filter_all. intros [k v] Hi. cbn [snd].
        destruct (beqb_spec v DefaultLeaf) as [Hq|Hq]; [|reflexivity]. exfalso.
        destruct (He k v Hi) as [_ He2]. apply He2 in Hq. rewrite Hm in Hq. destruct Hq. }
      rewrite split_keys_side; [|exact Hinc| |]; cycle 1.
      { eapply share_incl; [|apply Hdom]. apply incl_appr, incl_refl. }
      { eapply lens_incl; [|apply Hdom]. apply incl_appr, incl_refl. }
      fold n.
      set (mL := side n false m0) in *. set (mR := side n true m0) in *.
      set (kL := side n false kvs0). set (kR := side n true kvs0).
      set (lt := build h' (over mL kL)). set (rt := build h' (over mR kR)).
      assert (InL : inputs h' mL kL) by (apply inputs_side; assumption).
      assert (InR : inputs h' mR kR) by (apply inputs_side; assumption).
      destruct (inputs_good _ _ _ InL) as [GmL GL]. destruct (inputs_good _ _ _ InR) as [GmR GR].
      fold lt in GL. fold rt in GR.
      assert (Ht' : t' = collapse lt rt).
      { unfold t', h. rewrite build_collapse; [|exact Hh'| |]; fold n.
        - rewrite !side_over. reflexivity.
        - eapply dom_incl; [|exact Hdom]. intros k Hk. apply over_keys_incl in Hk. exact Hk.
        - apply over_NoDup; assumption. }
      assert (HneL : over mL kL <> [] -> lt <> E).
      { intros Hx Hq. apply Hx. eapply (build_E h'); [| |exact Hq].
        - eapply dom_incl; [|apply InL]. intros k Hk. apply over_keys_incl in Hk. exact Hk.
        - apply over_NoDup; [apply InL | apply increasing_NoDup; apply InL]. }
      assert (HneR : over mR kR <> [] -> rt <> E).
      { intros Hx Hq. apply Hx. eapply (build_E h'); [| |exact Hq].
        - eapply dom_incl; [|apply InR]. intros k Hk. apply over_keys_incl in Hk. exact Hk.
        - apply over_NoDup; [apply InR | apply increasing_NoDup; apply InR]. }
      assert (KL : incl (tkeys lt) (keys mL ++ keys kL)) by apply over_tkeys.
      assert (KR : incl (tkeys rt) (keys mR ++ keys kR)) by apply over_tkeys.
      assert (KLs : incl (keys mL ++ keys kL) ks) by (apply side_incl_ks; exact Hks).
      assert (KRs : incl (keys mR ++ keys kR) ks) by (apply side_incl_ks; exact Hks).
      assert (KLR : forall k, In k (keys mL ++ keys kL) -> In k (keys mR ++ keys kR) -> False).
      { intros k I1 I2. apply in_app_iff in I1, I2. unfold mL, kL, mR, kR in I1, I2.
        rewrite !in_side_keys in I1, I2. destruct I1 as [[_ I1]|[_ I1]], I2 as [[_ I2]|[_ I2]]; congruence. }
      assert (Hlens : length mL + length mR = length m0) by apply side_length.
      assert (Hkens : length kL + length kR = length kvs0) by apply side_length.
      (* the final call *)
      assert (Hfin : forall del nb2 s2, length nb2 = 31 ->
        desc (h' mod 4) (2 * ni + 1) h' lt nb2 -> desc (h' mod 4) (2 * ni + 2) h' rt nb2 ->
        (forall j, ~ sd (S (h' mod 4)) ni j -> slot j nb2 = slot j nb) ->
        stored s2 h' lt -> stored s2 h' rt -> live_ok s2 -> frame h ks s s2 ->
        (forall x, removed s2 x = true -> removed s x = true \/ gone h ks t' x) ->
        (del = false -> t' = N lt rt) ->
        runs ('(node, d, nb) <- finish H limit atomic (node h' lt) (node h' rt) del root nb2 ni h' ;;
              ret (node, d, if Nat.eqb (S h' mod 4) 0 then b else nb)) s2
             (post h ks lm (length (over m0 kvs0)) t' b i s)).
      { intros del nb2 s2 F1 F2 F3 F4 F5 F6 F7 F8 F9 F10. apply runs_bind.
        eapply runs_mono; [|eapply (finish_ok h' lt rt del told root nb2 ni ks s2); auto].
        - cbv beta zeta. fold h. rewrite <- Ht'. intros [[nd d] nb'] s' (-> & A2 & A3 & A4 & A5 & A6 & A7 & A8).
          apply runs_ret. apply Hlast; auto.
          + intros Hd. apply A2 in Hd. apply build_N_len in Hd. lia.
          + intros Hm. destruct (A4 Hm) as [A4a A4b]. split; [exact A4a|]. intros j Hj. rewrite A4b, F4 by exact Hj.
            reflexivity.
          + eapply frame_trans; [exact F8 | exact A7].
          + intros x Hx. apply F9. rewrite <- A8. exact Hx.
        - fold h. rewrite <- Ht'. exact Hg'.
        - rewrite <- Ht'. exact F10.
        - fold h. rewrite <- Ht'. exact Hne.
        - eapply incl_tran; eassumption.
        - eapply incl_tran; eassumption. }
      apply runs_bind. eapply runs_mono; [|apply maybe_remove_ok; exact Hr]. cbv beta.
      intros _ s1 (Hu1 & Hs1 & Hl1 & Hr1).
      assert (Hlive1 : live_ok s1) by (intros x b0 Hx; rewrite Hl1, Hu1 in Hx; eapply Hl; exact Hx).
      assert (Hr1' : forall x, removed s1 x = true -> removed s x = true \/ gone h ks t' x).
      { intros x Hx. apply Hr1 in Hx as [Hx|[Hte ->]]; [auto|]. right. apply root_gone; auto. }
      assert (Hfr1 : forall hh kk, frame hh kk s s1) by (intros; apply frame_same; assumption).
      assert (St1 : stored s1 h' (build h' mL) /\ stored s1 h' (build h' mR)).
      { rewrite Cl, Cr. split; (eapply stored_frame; [|eassumption]); intros x _; apply pend_same; auto;
        rewrite Hu1; reflexivity. }
      destruct St1 as [SL SR].
      rewrite <- Cl in Sl, Dl |- *. rewrite <- Cr in Sr, Dr |- *.
      assert (PL : placed h' (build h' mL) nb (2 * ni + 1)).
      { intros Hm. destruct (h' mod 4) as [|q] eqn:Hq; [congruence|]. split; [lia|]. split; [exact Hlb|].
        split; [apply child_l; exact Hbd|]. auto. }
      (* one call per half *)
      assert (RL : kL <> [] -> runs (update h' (node h' (build h' mL)) kL nb (2 * ni + 1)) s1
         (post h' (keys mL ++ keys kL) (length mL) (length (over mL kL)) lt nb (2 * ni + 1) s1)).
      { intros Hk. apply IH; auto. left. reflexivity. }
      assert (RR : forall nb1 s2, kR <> [] -> length nb1 = 31 -> slot (2 * ni + 2) nb1 = node h' (build h' mR) ->
         desc (h' mod 4) (2 * ni + 2) h' (build h' mR) nb1 -> stored s2 h' (build h' mR) -> live_ok s2 ->
         runs (update h' (node h' (build h' mR)) kR nb1 (2 * ni + 2)) s2
         (post h' (keys mR ++ keys kR) (length mR) (length (over mR kR)) rt nb1 (2 * ni + 2) s2)).
      { intros nb1 s2 Hk B1 B2 B3 B4 B5. apply IH; auto; [left; reflexivity|].
        intros Hm. destruct (h' mod 4) as [|q] eqn:Hq; [congruence|]. split; [lia|]. split; [exact B1|].
        split; [apply child_r; exact Hbd|]. auto. }
      assert (GoneL : forall x, gone h' (keys mL ++ keys kL) lt x -> gone h ks t' x).
      { intros x Hx. rewrite Ht'. eapply (gone_up h' (keys mL ++ keys kL)); eauto.
        - fold h. rewrite <- Ht'. exact Hg'. }
      assert (GoneR : forall x, gone h' (keys mR ++ keys kR) rt x -> gone h ks t' x).
      { intros x Hx. rewrite Ht'. eapply (collapse_nodes_sym h' lt rt x) with (ks1 := keys mR ++ keys kR); eauto.
        fold h. rewrite <- Ht'. exact Hg'. }
      assert (FU : forall kk sa sb, incl kk ks -> frame h' kk sa sb -> frame h ks sa sb).
      { intros kk sa sb Hi. apply frame_weaken; [unfold h; lia | exact Hi]. }
      assert (AL : kL = [] -> kR = kvs0) by apply side_all.
      assert (AR : kR = [] -> kL = kvs0) by apply side_all'.
      clearbody kL kR.
      destruct kL as [|kvl kL']; destruct kR as [|kvr kR'].
      - exfalso. simpl in Hkens. destruct kvs0; [congruence|discriminate].
      - (* right only *)
        specialize (AL eq_refl).
        replace (update h' (node h' (build h' mR)) kvs0 nb (2 * ni + 2))
          with (update h' (node h' (build h' mR)) (kvr :: kR') nb (2 * ni + 2)) by (rewrite AL; reflexivity).
        assert (Elt : build h' mL = lt) by (unfold lt; rewrite over_nil_r; reflexivity).
        apply runs_bind. eapply runs_mono; [|apply (RR nb s1); auto; discriminate].
        intros [[r del] nb1] s2 (-> & B2 & B3 & B4 & B5 & B6 & B7 & B8 & B9).
        rewrite Elt in *. apply Hfin; auto.
        + congruence.
        + eapply desc_frame; [|exact Dl]. intros j Hj. apply B5. intros Hj2.
          eapply sd_disjoint; [exact Hj | exact Hj2 | reflexivity].
        + intros j Hj. apply B5. apply sd_child_r. exact Hj.
        + eapply frame_stored; [exact B8 | exact GmL| |exact SL].
          intros k I1 I2. eapply KLR; [|exact I1]. apply KL. exact I2.
        + eapply frame_trans; [apply Hfr1|]. eapply FU; [|exact B8]. exact KRs.
        + intros x Hx. apply B9 in Hx as [Hx|Hx]; auto.
        + intros Hd. destruct (B2 Hd) as [B2a B2b]. rewrite Ht'.
          assert (Hrt : rt <> E) by (apply HneR; intros Hq; rewrite Hq in B2a; simpl in B2a; lia).
          destruct (tree_E_dec lt) as [HlE|HlE]; [|apply collapse_N; assumption].
          assert (HmL : mL = []).
          { destruct mL as [|x mL'] eqn:EmL; [reflexivity|]. exfalso. apply HneL; [|exact HlE].
            rewrite over_nil_r. discriminate. }
          assert (Hlr : 2 <= length (over mR (kvr :: kR'))).
          { destruct Htwo as [Ht|[Hm Ht]].
            - apply B2b. rewrite HmL in Hlens. simpl in Hlens. lia.
            - assert (mR = []) as -> by (unfold mR; rewrite Hm; reflexivity).
              rewrite AL, <- Hm, Hov0 by exact Hm. exact Ht. }
          destruct h' as [|h'']; [lia|]. destruct (build_two h'' _ Hlr) as (l & r & Hq).
          rewrite HlE. unfold rt. rewrite Hq. reflexivity.
      - (* left only *)
        specialize (AR eq_refl).
        replace (update h' (node h' (build h' mL)) kvs0 nb (2 * ni + 1))
          with (update h' (node h' (build h' mL)) (kvl :: kL') nb (2 * ni + 1)) by (rewrite AR; reflexivity).
        assert (Ert : build h' mR = rt) by (unfold rt; rewrite over_nil_r; reflexivity).
        apply runs_bind. eapply runs_mono; [|apply RL; discriminate].
        intros [[l del] nb1] s2 (-> & B2 & B3 & B4 & B5 & B6 & B7 & B8 & B9).
        rewrite Ert in *. apply Hfin; auto.
        + congruence.
        + eapply desc_frame; [|exact Dr]. intros j Hj. apply B5. intros Hj2.
          eapply sd_disjoint; [exact Hj2 | exact Hj | reflexivity].
        + intros j Hj. apply B5. apply sd_child_l. exact Hj.
        + eapply frame_stored; [exact B8 | exact GmR| |exact SR].
          intros k I1 I2. eapply KLR; [exact I1|]. apply KR. exact I2.
        + eapply frame_trans; [apply Hfr1|]. eapply FU; [|exact B8]. exact KLs.
        + intros x Hx. apply B9 in Hx as [Hx|Hx]; auto.
        + intros Hd. destruct (B2 Hd) as [B2a B2b]. rewrite Ht'.
          assert (Hlt : lt <> E) by (apply HneL; intros Hq; rewrite Hq in B2a; simpl in B2a; lia).
          destruct (tree_E_dec rt) as [HrE|HrE]; [|apply collapse_N; assumption].
          assert (HmR : mR = []).
          { destruct mR as [|x mR'] eqn:EmR; [reflexivity|]. exfalso. apply HneR; [|exact HrE].
            rewrite over_nil_r. discriminate. }
          assert (Hll : 2 <= length (over mL (kvl :: kL'))).
          { destruct Htwo as [Ht|[Hm Ht]].
            - apply B2b. rewrite HmR in Hlens. simpl in Hlens. lia.
            - assert (mL = []) as -> by (unfold mL; rewrite Hm; reflexivity).
              rewrite AR, <- Hm, Hov0 by exact Hm. exact Ht. }
          destruct h' as [|h'']; [lia|]. destruct (build_two h'' _ Hll) as (l & r & Hq).
          rewrite HrE. unfold lt. rewrite Hq. reflexivity.
      - (* both *)
        apply runs_bind. eapply runs_mono; [|apply RL; discriminate].
        intros [[l ldel] nb1] s2 (-> & B2 & B3 & B4 & B5 & B6 & B7 & B8 & B9).
        apply runs_bind. eapply runs_mono; [|apply (RR nb1 s2); auto; try discriminate].
        + intros [[r rdel] nb2] s3 (-> & C2 & C3 & C4 & C5 & C6 & C7 & C8 & C9).
          apply Hfin; auto.
          * congruence.
          * eapply desc_frame; [|exact B4]. intros j Hj. apply C5. intros Hj2.
            eapply sd_disjoint; [exact Hj | exact Hj2 | reflexivity].
          * intros j Hj. rewrite C5 by (apply sd_child_r; exact Hj). apply B5. apply sd_child_l. exact Hj.
          * eapply frame_stored; [exact C8 | exact GL| |exact B6].
            intros k I1 I2. eapply KLR; [|exact I1]. apply KL. exact I2.
          * eapply frame_trans; [apply Hfr1|]. eapply frame_trans; [eapply FU; [|exact B8]; exact KLs|].
            eapply FU; [|exact C8]. exact KRs.
          * intros x Hx. apply C9 in Hx as [Hx|Hx]; [|auto]. apply B9 in Hx as [Hx|Hx]; auto.
          * intros Hd. apply orb_false_iff in Hd as [Hd1 Hd2]. rewrite Ht'. apply collapse_N.
            -- apply HneL. intros Hq. rewrite Hq in B2. destruct (B2 Hd1). simpl in *. lia.
            -- apply HneR. intros Hq. rewrite Hq in C2. destruct (C2 Hd2). simpl in *. lia.
        + congruence.
        + rewrite B5; [exact Sr|]. intros Hj. apply sd_top_disjoint in Hj. lia.
        + eapply desc_frame; [|exact Dr]. intros j Hj. apply B5. intros Hj2.
          eapply sd_disjoint; [exact Hj2 | exact Hj | reflexivity].
        + eapply frame_stored; [exact B8 | exact GmR| |exact SR].
          intros k I1 I2. apply build_tkeys in I2. eapply KLR; [exact I1|]. apply in_app_iff. auto. }
    unfold cont. cbv zeta.
    destruct Hm0 as [Hm|Hm].
    - assert (Ht0 : t0 = E) by (unfold t0; rewrite Hm; reflexivity). rewrite Ht0 in *. cbn [ltree rtree TrieStore.node] in *.
      destruct kvs0 as [|[k v] [|kv kvs0]]; [congruence | apply Hleaf; auto |].
      apply Hgen. right. split; [exact Hm | simpl; lia].
    - assert (Hnn : ltree t0 <> E \/ rtree t0 <> E).
      { unfold t0, h in *. rewrite build_S in * by exact Hm. cbn [ltree rtree]. apply Hg0. }
      specialize (Hgen (or_introl Hm)). 
      destruct (node h' (ltree t0)) eqn:Nl; [|destruct (node h' (rtree t0)); exact Hgen].
      destruct (node h' (rtree t0)) eqn:Nr; [|exact Hgen].
      apply (node_nil H) in Nl, Nr. exfalso. tauto.
  Qed.

  Lemma Gok_perm h m m' : Permutation m m' -> Gok h m -> Gok h m'.
  Proof.
    intros Hp [A B]. split.
    - rewrite <- (build_perm h m m' Hp). exact A.
    - intros k v h' Hi. apply B. eapply Permutation_in; [apply Permutation_sym; exact Hp | exact Hi].
  Qed.

  Lemma over_nil_nd kvs : (forall k v, In (k, v) kvs -> v <> DefaultLeaf) -> over [] kvs = kvs.
  Proof.
    intros Hv. rewrite over_nil. apply filter_all. intros [k v] Hi. cbn [snd]. apply Hv in Hi.
    apply beqb_neq in Hi. rewrite Hi. reflexivity.
  Qed.

  Lemma not_straddled_side sk sv kvs h : dom h (sk :: keys kvs) -> ~ straddled [(sk, sv)] kvs ->
    forall v, In (sk, v) kvs -> v = DefaultLeaf ->
     (forall x, In x (keys kvs) -> bcmp x sk <> Lt) \/ (forall x, In x (keys kvs) -> bcmp sk x <> Lt).
  Proof.
    intros (_ & Hsh & _) Hns v Hi Hv. subst v.
    set (f := fun x => match bcmp x sk with Lt => true | _ => false end).
    destruct (existsb f (keys kvs)) eqn:Hf.
    - right. intros x Hx Hlt. apply existsb_exists in Hf as (y & Hy & Hfy). unfold f in Hfy.
      destruct (bcmp y sk) eqn:Hys; try discriminate. apply Hns.
      exists (TrieHeight - h), sk, y, x. split; [exact Hi|]. split; [simpl; auto|]. do 4 (split; [assumption|]).
      split; [apply Hsh; simpl; auto|]. split; [apply Hsh; simpl; auto|].
      intros z [<-|[]]. auto.
    - left. intros x Hx Hlt. assert (Ht : existsb f (keys kvs) = true).
      { apply existsb_exists. exists x. split; [exact Hx|]. unfold f. rewrite Hlt. reflexivity. }
      congruence.
  Qed.

  Lemma post_mono h ks lm lm' lm2 t' b i s s0 r s' :
    lm' = lm2 -> frame h ks s0 s -> removed s = removed s0 ->
    post h ks lm lm' t' b i s r s' -> post h ks lm lm2 t' b i s0 r s'.
  Proof.
    intros <- Hf Hrm. destruct r as [[nd d] b']. intros (A1 & A2 & A3 & A4 & A5 & A6 & A7 & A8 & A9).
    do 7 (split; [assumption|]). split; [eapply frame_trans; eauto|]. rewrite Hrm in A9. exact A9.
  Qed.

  Theorem update_ok h : update_spec h.
  Proof.
    induction h as [|h' IH]; intros root m kvs b i s Hin Hkne Hr Hpl Hst Hl.
    { destruct Hin as (((Hh & _) & _) & _). lia. }
    set (h := S h') in *. destruct kvs as [|kv kvs']; [congruence|].
    change (update h root (kv :: kvs') b i) with (update (S h') root (kv :: kvs') b i). rewrite update_S.
    set (kvs := kv :: kvs') in *. fold h.
    destruct (inputs_good _ _ _ Hin) as [Hg Hg'].
    pose proof (inputs_differ _ _ _ Hin Hkne) as Hdiff.
    assert (Hkt : incl (tkeys (build h m)) (keys m ++ keys kvs)).
    { intros k Hk. apply build_tkeys in Hk. apply in_app_iff. auto. }
    apply runs_bind.
    eapply runs_mono; [|apply (load_children_ok h' (build h m) root i b s); auto; intros Hm; apply Hpl; exact Hm].
    cbv beta. intros [[[[nb ni] l] r] sc] s1
      (Hlb & Hbd & Hni & Hsame & Hds & -> & -> & -> & Hl1 & Hu1 & Hrm1 & Hs1). fold h in Hni, Hsame, Hds.
    assert (Hfr1 : frame h (keys m ++ keys kvs) s s1) by (apply frame_same; assumption).
    assert (Hst1 : stored s1 h (build h m)).
    { eapply stored_frame; [|exact Hst]. intros x _. apply pend_same; [exact Hs1 | rewrite Hu1; reflexivity]. }
    pose proof (child_le _ _ Hbd) as Hc.
    destruct (is_leaf (build h m)) eqn:Hlf.
    - (* the subtree is one leaf *)
      destruct (build h m) as [|sk sv|? ?] eqn:Hbm; try discriminate.
      pose proof (build_leaf_inv _ _ _ _ Hbm) as Hm. 
      pose proof Hds as ((Hsk & Hsv) & _). rewrite Hsk, Hsv.
      destruct (wf_leaf_k _ _ _ Hg) as [Lk Lv]. rewrite !firstn_app_exact by assumption.
      pose proof Hin as (Hdom & Hnd & Hinc & Hv & Hbv & He & Hns & G1 & G2).
      rewrite Hm in He, Hns. 
      destruct (maybe_add_ok sk sv kvs) as (M1 & M2 & M3 & M4); auto.
      { eapply not_straddled_side; [|exact Hns]. rewrite Hm in Hdom. exact Hdom. }
      { intros Hq. rewrite Hq in Lv. discriminate. }
      cbv zeta. set (kvs2 := maybe_add_shortcut kvs sk sv) in *.
      assert (M3' : forall k v, In (k, v) kvs2 -> v <> DefaultLeaf) by (intros k v Hi; apply (M3 k v Hi)).
      rewrite <- Hm in M4.
      assert (Ht' : build h (over m kvs) = build h kvs2) by (symmetry; apply build_perm; exact M4).
      assert (Hlen2 : length kvs2 = length (over m kvs)) by (apply Permutation_length; exact M4).
      change (set_nth (2 * ni + 2) [] (set_nth (2 * ni + 1) [] nb)) with (set2 ni [] [] nb).
      apply runs_bind.
      assert (Hdel : runs (if Nat.eqb ni 0 then delete_old_node limit atomic root h false else ret tt) s1
        (fun _ s2 => live_ok s2 /\ frame h (keys m ++ keys kvs) s s2 /\ removed s2 = removed s)).
      { destruct (Nat.eqb ni 0); [|apply runs_ret; auto].
        eapply runs_mono; [|apply delete_old_ok]. cbv beta. intros _ s2 (D1 & D2 & D3 & D4).
        split; [auto|]. split; [|congruence]. split; [congruence|]. intros x.
        destruct (beqb_spec x (to_hash root)) as [->|Hx]; [|right; rewrite D3 by exact Hx; rewrite Hu1; reflexivity].
        left. destruct (root_touch _ _ _ Hr) as [[Hq _]|[_ ->]]; [discriminate|].
        apply touch_tree; [exact Hg | discriminate | exact Hkt]. }
      eapply runs_mono; [|exact Hdel]. cbv beta. intros _ s2 (Hl2 & Hfr2 & Hrm2).
      assert (Hmod : h mod 4 <> 0 -> h mod 4 = S (h' mod 4)).
      { intros Hm4. destruct (mod4_S h') as [[A B]|[A B]]; [unfold h in *; lia | exact B]. }
      assert (Hd2 : desc (S (h' mod 4)) ni h E (set2 ni [] [] nb)) by (eapply desc_clear; eauto).
      assert (Hlb2 : length (set2 ni [] [] nb) = 31) by (rewrite set2_length; exact Hlb).
      destruct kvs2 as [|kv2 kvs2'] eqn:E2.
      + apply runs_ret. rewrite Ht'. split; [reflexivity|]. split; [discriminate|].
        destruct (Nat.eqb_spec (h mod 4) 0) as [Hm4|Hm4].
        * rewrite Hm4. do 3 (split; [solve [auto | exact I]|]). split; [exact I|].
          split; [exact Hl2|]. split; [exact Hfr2|]. intros x Hx. left. rewrite <- Hrm2. exact Hx.
        * destruct (Hsame Hm4) as [-> ->]. rewrite (Hmod Hm4). split; [congruence|]. split; [exact Hd2|].
          split; [intros j Hj; eapply sd_set2; exact Hj|]. split; [exact I|].
          split; [exact Hl2|]. split; [exact Hfr2|]. intros x Hx. left. rewrite <- Hrm2. exact Hx.
      + rewrite <- E2 in *.
        assert (Hov : over [] kvs2 = kvs2) by (apply over_nil_nd; exact M3').
        assert (Hki : incl (keys kvs2) (keys m ++ keys kvs)) by (rewrite Hm; exact M2).
        assert (Hin2 : inputs h [] kvs2).
        { split; [eapply dom_incl; [exact Hki | exact Hdom]|]. split; [constructor|]. split; [exact M1|].
          split; [intros ? ? []|]. split.
          { intros k v Hi. left. assert (Hi2 : In (k, v) (over m kvs)) by (eapply Permutation_in; eauto).
            exact (vals_ok_over m kvs Hv Hbv k v Hi2). }
          split; [intros k v Hi; split; [intros _; discriminate | intros Hq; exfalso; eapply M3'; eauto]|].
          split; [intros (n & d & k1 & k2 & _ & [] & _)|].
          split; [split; [destruct h'; intros ? [] | intros ? ? ? []]|].
          rewrite Hov. eapply Gok_perm; [apply Permutation_sym; exact M4 | exact G2]. }
        assert (Hb0 : build h [] = E) by reflexivity.
        rewrite Ht', <- Hlen2. rewrite <- Hov at 2 3.
        eapply runs_mono; [|apply (cont_ok h' root [] kvs2 (L sk sv) b i (set2 ni [] [] nb) ni (length m)
                                    (keys m ++ keys kvs) s2 IH); auto].
        * fold h. intros r s'. apply post_mono; auto.
        * rewrite E2. discriminate.
        * intros _. rewrite Hm. simpl. lia.
        * rewrite Hov. fold h. rewrite <- Ht'. exact Hdiff.
        * fold h. intros Hm4. destruct (Hsame Hm4) as [-> ->]. split; [reflexivity|]. split; [exact Hlb|].
          intros j Hj. rewrite (Hmod Hm4) in Hj. eapply sd_set2; exact Hj.
        * exact I.
        * exact I.
    - assert (Hm : m = [] \/ 2 <= length m).
      { destruct m as [|[k v] [|kv2 m2]]; [auto | discriminate | right; simpl; lia]. }
      destruct (desc_children _ _ _ _ _ Hlf Hds) as (Sl & Sr & _ & _). rewrite Sl, Sr.
      assert (Hsub : stored s1 h' (ltree (build h m)) /\ stored s1 h' (rtree (build h m))).
      { destruct (build h m) as [|k v|tl tr]; [split; exact I | discriminate|]. split; apply Hst1. }
      destruct Hsub as [HsL HsR].
      eapply runs_mono; [|apply (cont_ok h' root m kvs (build h m) b i nb ni (length m) (keys m ++ keys kvs) s1 IH); auto].
      + intros r s'. apply post_mono; auto.
      + intros Hq. rewrite Hq. simpl. lia.
      + apply incl_refl.
      + fold h. intros Hm4. destruct (Hsame Hm4) as [-> ->]. split; [reflexivity|]. split; [exact Hlb|]. auto.
  Qed.
End Update.
