(** How a canonical tree is laid out in 31-slot batches and stored under its hashes. *)
From Verif Require Import Base TrieModel TrieSpec BaseLemmas TrieMaps TrieHash.

Global Arguments Nat.mul : simpl never.
Global Arguments Nat.modulo : simpl never.
Global Arguments Nat.pow : simpl never.

Definition ltree (t : tree) : tree := match t with N l _ => l | _ => E end.
Definition rtree (t : tree) : tree := match t with N _ r => r | _ => E end.

(** ** Slots *)
Lemma slot_set i j x b : length b = 31 -> i <= 30 ->
  slot j (set_nth i x b) = if Nat.eqb j i then x else slot j b.
Proof.
  intros Hl Hi. unfold slot. rewrite nth_set_nth, Hl. destruct (Nat.eqb j i); simpl; [|reflexivity].
  destruct (Nat.ltb_spec i 31); [reflexivity|lia].
Qed.
Lemma slot_set_eq i x b : length b = 31 -> i <= 30 -> slot i (set_nth i x b) = x.
Proof. intros Hl Hi. rewrite slot_set, Nat.eqb_refl by assumption. reflexivity. Qed.
Lemma slot_set_ne i j x b : j <> i -> slot j (set_nth i x b) = slot j b.
Proof.
  intros Hn. unfold slot. rewrite nth_set_nth. destruct (Nat.eqb_spec j i); [contradiction|reflexivity].
Qed.

(** [j] is one of the slots in the [n] levels below slot [i]. *)
Fixpoint sd (n i j : nat) : Prop :=
  match n with
  | O => False
  | S n' => j = 2 * i + 1 \/ j = 2 * i + 2 \/ sd n' (2 * i + 1) j \/ sd n' (2 * i + 2) j
  end.

Lemma pow2_S n : 2 ^ S n = 2 * 2 ^ n.
Proof. reflexivity. Qed.

Lemma sd_range n i j : sd n i j -> exists l, 1 <= l <= n /\ (i + 1) * 2 ^ l <= j + 1 < (i + 2) * 2 ^ l.
Proof.
  revert i. induction n as [|n IH]; intros i; cbn [sd]; [tauto|].
  intros [->|[->|[Hs|Hs]]].
  - exists 1. change (2 ^ 1) with 2. lia.
  - exists 1. change (2 ^ 1) with 2. lia.
  - apply IH in Hs as (l & Hl & Hb). exists (S l). rewrite pow2_S.
    replace ((2 * i + 1 + 1) * 2 ^ l) with ((i + 1) * (2 * 2 ^ l)) in Hb by lia. split; [lia|].
    split; [tauto|]. assert ((2 * i + 1 + 2) * 2 ^ l <= (i + 2) * (2 * 2 ^ l)) by nia. lia.
  - apply IH in Hs as (l & Hl & Hb). exists (S l). rewrite pow2_S. split; [lia|].
    assert ((i + 1) * (2 * 2 ^ l) <= (2 * i + 2 + 1) * 2 ^ l) by nia.
    assert ((2 * i + 2 + 2) * 2 ^ l = (i + 2) * (2 * 2 ^ l)) by nia. lia.
Qed.

Lemma pow2_pos n : 1 <= 2 ^ n.
Proof. induction n as [|n IH]; [cbv; lia|]. rewrite pow2_S. lia. Qed.
Lemma pow2_mono a b : a <= b -> 2 ^ a <= 2 ^ b.
Proof. intros Hab. apply Nat.pow_le_mono_r; lia. Qed.

Lemma sd_gt n i j : sd n i j -> i < j.
Proof.
  intros Hs. apply sd_range in Hs as (l & Hl & Hb). pose proof (pow2_mono 1 l ltac:(lia)) as Hp.
  change (2 ^ 1) with 2 in Hp. assert ((i + 1) * 2 <= (i + 1) * 2 ^ l) by nia. lia.
Qed.
Lemma sd_le n i j : (i + 2) * 2 ^ n <= 32 -> sd n i j -> j <= 30.
Proof.
  intros Hi Hs. apply sd_range in Hs as (l & Hl & Hb). pose proof (pow2_mono l n ltac:(lia)) as Hp. nia.
Qed.
Lemma sd_disjoint n i j n' j' : sd n (2 * i + 1) j -> sd n' (2 * i + 2) j' -> j <> j'.
Proof.
  intros Ha Hb. apply sd_range in Ha as (a & La & Ba). apply sd_range in Hb as (b & Lb & Bb). intros <-.
  destruct (Nat.le_gt_cases a b) as [Hab|Hab].
  - pose proof (pow2_mono a b Hab). nia.
  - pose proof (pow2_mono (S b) a ltac:(lia)) as Hp. rewrite pow2_S in Hp.
    assert (0 < 2 ^ b) by (pose proof (pow2_pos b); lia). nia.
Qed.
Lemma sd_top_disjoint n i j : sd n (2 * i + 1) j -> j <> 2 * i + 1 /\ j <> 2 * i + 2.
Proof.
  intros Hs. apply sd_range in Hs as (l & Hl & Hb).
  pose proof (pow2_mono 1 l ltac:(lia)) as Hp. change (2 ^ 1) with 2 in Hp.
  assert ((2 * i + 1 + 1) * 2 <= (2 * i + 1 + 1) * 2 ^ l) by nia. lia.
Qed.
Lemma sd_top_disjoint2 n i j : sd n (2 * i + 2) j -> j <> 2 * i + 1 /\ j <> 2 * i + 2.
Proof. intros Hs. apply sd_gt in Hs. lia. Qed.

Lemma child_l n i : (i + 2) * 2 ^ S n <= 32 -> (2 * i + 1 + 2) * 2 ^ n <= 32.
Proof. rewrite pow2_S. nia. Qed.
Lemma child_r n i : (i + 2) * 2 ^ S n <= 32 -> (2 * i + 2 + 2) * 2 ^ n <= 32.
Proof. rewrite pow2_S. nia. Qed.
Lemma child_le n i : (i + 2) * 2 ^ S n <= 32 -> 2 * i + 2 <= 30.
Proof. rewrite pow2_S. pose proof (pow2_pos n). nia. Qed.

Definition is_leaf (t : tree) : bool := match t with L _ _ => true | _ => false end.

Section Store.
  Variable H : bytes -> bytes.
  Hypothesis Hlen : forall x, length (H x) = HashLength.
  Variable limit : nat.
  Variable atomic : bool.
  Variable G : bytes -> Prop.
  Hypothesis Hcf : collision_free H G.
  Hypothesis Hnz : forall x, G x -> H x <> zero_hash.

  Notation hash_of := (hash_of H).
  Notation good := (good H G).

  (** The slot content of a subtree: hash and leaf flag. *)
  Definition node (h : nat) (t : tree) : bytes :=
    match t with
    | E => []
    | L _ _ => hash_of h t ++ [x01]
    | N _ _ => hash_of h t ++ [x00]
    end.

  Fixpoint desc (n i h : nat) (t : tree) (b : batch) : Prop :=
    match n with
    | O => True
    | S n' =>
        match t with
        | E => slot (2 * i + 1) b = [] /\ slot (2 * i + 2) b = []
        | L k v => slot (2 * i + 1) b = k ++ [x02] /\ slot (2 * i + 2) b = v ++ [x02]
        | N l r => slot (2 * i + 1) b = node (pred h) l /\ slot (2 * i + 2) b = node (pred h) r
        end /\
        desc n' (2 * i + 1) (pred h) (ltree t) b /\ desc n' (2 * i + 2) (pred h) (rtree t) b
    end.

  Definition batch_ok (b : batch) (h : nat) (t : tree) : Prop :=
    length b = 31 /\ slot 0 b = (if is_leaf t then [x01] else [x00]) /\ desc 4 0 h t b.

  (** What a reader without live cache finds under a hash. *)
  Definition pend (s : cdb) (x : bytes) : option batch :=
    match updated s x with
    | Some b => Some b
    | None => match store s x with
              | Some (y :: v) => Some (parse_batch (y :: v))
              | _ => None
              end
    end.

  Definition has (s : cdb) (h : nat) (t : tree) : Prop :=
    exists b, pend s (hash_of h t) = Some b /\ batch_ok b h t.

  Fixpoint stored (s : cdb) (h : nat) (t : tree) : Prop :=
    match t with
    | E => True
    | L _ _ => h mod 4 = 0 -> has s h t
    | N l r => (h mod 4 = 0 -> has s h t) /\ stored s (pred h) l /\ stored s (pred h) r
    end.

  Definition live_ok (s : cdb) : Prop :=
    forall x b, live s x = Some b \/ updated s x = Some b ->
    forall h t, good h t -> t <> E -> h mod 4 = 0 -> hash_of h t = x -> batch_ok b h t.

  (** ** node *)
  Lemma node_firstn h t : firstn HashLength (node h t) = hash_of h t.
  Proof.
    destruct t as [|k v|l r].
    - cbn [node]. rewrite firstn_nil. reflexivity.
    - apply firstn_app_exact. apply hash_length; [exact Hlen | discriminate].
    - apply firstn_app_exact. apply hash_length; [exact Hlen | discriminate].
  Qed.
  Lemma hash_firstn h t : firstn HashLength (hash_of h t) = hash_of h t.
  Proof.
    destruct (hash_of h t) eqn:Hq; [apply firstn_nil|]. rewrite <- Hq.
    apply firstn_all2. rewrite (hash_length H Hlen); [lia|]. intros ->. discriminate.
  Qed.
  Lemma node_nil h t : node h t = [] <-> t = E.
  Proof.
    split; [|intros ->; reflexivity]. destruct t; auto; cbn [node]; intros Hq; apply app_eq_nil in Hq as [_ Hq];
    discriminate.
  Qed.
  Lemma node_flag h t : t <> E -> firstn 1 (skipn HashLength (node h t)) = if is_leaf t then [x01] else [x00].
  Proof.
    intros Hne. destruct t as [|k v|l r]; [congruence| |]; cbn [node is_leaf];
    rewrite skipn_app_exact by (apply hash_length; [exact Hlen | discriminate]); reflexivity.
  Qed.
  Lemma node_length h t : t <> E -> length (node h t) = 33.
  Proof.
    intros Hne. destruct t as [|k v|l r]; [congruence| |]; cbn [node]; rewrite app_length, (hash_length H Hlen), HL
    by discriminate; reflexivity.
  Qed.
  Lemma to_hash_long x : HashLength <= length x -> to_hash x = firstn HashLength x.
  Proof.
    intros Hl. unfold to_hash. rewrite firstn_app. replace (HashLength - length x) with 0 by lia.
    simpl. apply app_nil_r.
  Qed.
  Lemma to_hash_nil : to_hash [] = zero_hash.
  Proof. unfold to_hash, zero_hash. simpl. apply firstn_all2. rewrite repeat_length. lia. Qed.

  (** A root as handed to the recursive functions: the 33-byte slot content, or at the top the 32-byte hash. *)
  Definition rootlike (h : nat) (t : tree) (root : bytes) : Prop := root = node h t \/ root = hash_of h t.

  Lemma rootlike_nil h t root : rootlike h t root -> (root = [] <-> t = E).
  Proof.
    intros [->| ->]; [apply node_nil|]. apply (hash_nil H Hlen).
  Qed.
  Lemma rootlike_to_hash h t root : rootlike h t root -> t <> E -> to_hash root = hash_of h t.
  Proof.
    intros [->| ->] Hne.
    - rewrite to_hash_long; [apply node_firstn|]. rewrite node_length, HL by exact Hne. lia.
    - rewrite to_hash_long; [apply hash_firstn|]. rewrite (hash_length H Hlen) by exact Hne. lia.
  Qed.
  Lemma rootlike_firstn h t root : rootlike h t root -> firstn HashLength root = hash_of h t.
  Proof. intros [->| ->]; [apply node_firstn | apply hash_firstn]. Qed.

  Lemma to_hash_node h t : t <> E -> to_hash (node h t) = hash_of h t.
  Proof. intros Hne. apply rootlike_to_hash; [left; reflexivity | exact Hne]. Qed.

  Lemma good_nz h t : good h t -> t <> E -> hash_of h t <> zero_hash.
  Proof.
    intros Hg Hne. destruct (good_string H G h t Hg Hne) as (s & Hs & ->). apply Hnz. exact Hs.
  Qed.

  (** ** desc *)
  Lemma desc_frame n i h t b b' :
    (forall j, sd n i j -> slot j b' = slot j b) -> desc n i h t b -> desc n i h t b'.
  Proof.
    revert i h t. induction n as [|n IH]; intros i h t Hf; cbn [desc]; [auto|].
    intros (Ht & Hl & Hr). split; [|split].
    - rewrite !Hf by (cbn [sd]; auto). exact Ht.
    - eapply IH; [|exact Hl]. intros j Hj. apply Hf. cbn [sd]. auto.
    - eapply IH; [|exact Hr]. intros j Hj. apply Hf. cbn [sd]. auto.
  Qed.

  Lemma desc_E_height n i h h' b : desc n i h E b -> desc n i h' E b.
  Proof.
    revert i h h'. induction n as [|n IH]; intros i h h'; cbn [desc ltree rtree]; [auto|].
    intros (Ht & Hl & Hr). split; [exact Ht|]. split; eapply IH; eauto.
  Qed.

  Lemma desc_empty n i h : desc n i h E (set_nth 0 [x00] empty_batch).
  Proof.
    assert (Hs : forall j, 1 <= j -> slot j (set_nth 0 [x00] empty_batch) = []).
    { intros j Hj. rewrite slot_set_ne by lia. unfold slot, empty_batch.
      destruct (nth_in_or_default j (repeat (@nil byte) 31) []) as [Hi|Hi]; [|exact Hi].
      apply repeat_spec in Hi. exact Hi. }
    revert i h. induction n as [|n IH]; intros i h; cbn [desc ltree rtree]; [auto|].
    split; [|split; apply IH]. split; apply Hs; lia.
  Qed.

  Lemma batch_ok_empty h : batch_ok (set_nth 0 [x00] empty_batch) h E.
  Proof.
    split; [rewrite set_nth_length; reflexivity|]. split; [reflexivity | apply desc_empty].
  Qed.

  (** ** Stored nodes *)
  Fixpoint nodes (h : nat) (t : tree) : list bytes :=
    match t with
    | E => []
    | L _ _ => if Nat.eqb (h mod 4) 0 then [hash_of h t] else []
    | N l r => (if Nat.eqb (h mod 4) 0 then [hash_of h t] else []) ++ nodes (pred h) l ++ nodes (pred h) r
    end.

  Lemma stored_frame s s' h t :
    (forall x, In x (nodes h t) -> pend s' x = pend s x) -> stored s h t -> stored s' h t.
  Proof.
    revert h. induction t as [|k v|l IHl r IHr]; intros h Hf; cbn [stored]; [auto| |].
    - intros Hs Hm. destruct (Hs Hm) as (b & Hp & Hb). exists b. split; [|exact Hb].
      rewrite Hf; [exact Hp|]. cbn [nodes]. rewrite Hm. simpl. auto.
    - intros (Hs & Hl & Hr). split; [|split].
      + intros Hm. destruct (Hs Hm) as (b & Hp & Hb). exists b. split; [|exact Hb].
        rewrite Hf; [exact Hp|]. cbn [nodes]. rewrite Hm. simpl. auto.
      + apply IHl; [|exact Hl]. intros x Hx. apply Hf. cbn [nodes]. rewrite !in_app_iff. auto.
      + apply IHr; [|exact Hr]. intros x Hx. apply Hf. cbn [nodes]. rewrite !in_app_iff. auto.
  Qed.

  Lemma stored_E_any s h : stored s h E.
  Proof. exact I. Qed.

  Lemma stored_has s h t : stored s h t -> t <> E -> h mod 4 = 0 -> has s h t.
  Proof. destruct t; cbn [stored]; [congruence|tauto|tauto]. Qed.

  Lemma nodes_good h t x : good h t -> In x (nodes h t) ->
    exists h2 t2, h2 <= h /\ good h2 t2 /\ t2 <> E /\ h2 mod 4 = 0 /\ hash_of h2 t2 = x /\
                  incl (tkeys t2) (tkeys t) /\ (h2 = h -> t2 = t).
  Proof.
    revert h. induction t as [|k v|l IHl r IHr]; intros h Hg; cbn [nodes].
    - intros [].
    - destruct (Nat.eqb_spec (h mod 4) 0) as [Hm|Hm]; [|intros []].
      intros [<-|[]]. exists h, (L k v). repeat split; auto; try apply Hg; [discriminate | apply incl_refl].
    - rewrite !in_app_iff. intros [Hi|[Hi|Hi]].
      + destruct (Nat.eqb_spec (h mod 4) 0) as [Hm|Hm]; [|destruct Hi].
        destruct Hi as [<-|[]]. exists h, (N l r). repeat split; auto; try apply Hg; [discriminate | apply incl_refl].
      + pose proof (wf_pos_N _ _ _ (proj1 Hg)). destruct (good_N H G _ _ _ Hg) as [Gl Gr].
        destruct (IHl _ Gl Hi) as (h2 & t2 & Hh & Hg2 & Hne & Hm & Hx & Hk & _).
        exists h2, t2. split; [lia|]. repeat split; auto; try apply Hg2; [|lia].
        cbn [tkeys]. apply incl_appl. exact Hk.
      + pose proof (wf_pos_N _ _ _ (proj1 Hg)). destruct (good_N H G _ _ _ Hg) as [Gl Gr].
        destruct (IHr _ Gr Hi) as (h2 & t2 & Hh & Hg2 & Hne & Hm & Hx & Hk & _).
        exists h2, t2. split; [lia|]. repeat split; auto; try apply Hg2; [|lia].
        cbn [tkeys]. apply incl_appr. exact Hk.
  Qed.

  Lemma tkeys_nonempty h t : wf h t -> t <> E -> exists k, In k (tkeys t).
  Proof.
    revert h. induction t as [|k v|l IHl r IHr]; intros h Hw Hne; [congruence| |].
    - exists k. cbn [tkeys]. simpl. auto.
    - destruct Hw as (_ & Hor & Hl & Hr). destruct Hor as [Hl0|Hr0].
      + destruct (IHl _ Hl Hl0) as (k & Hk). exists k. cbn [tkeys]. apply in_app_iff. auto.
      + destruct (IHr _ Hr Hr0) as (k & Hk). exists k. cbn [tkeys]. apply in_app_iff. auto.
  Qed.

  (** ** Loading *)
  Lemma load_batch_ok s h t root : good h t -> t <> E -> h mod 4 = 0 -> rootlike h t root ->
    has s h t -> live_ok s ->
    exists b s', load_batch limit root h s = (Ok b, s') /\ batch_ok b h t /\ live_ok s' /\
                 updated s' = updated s /\ removed s' = removed s /\ store s' = store s.
  Proof.
    intros Hg Hne Hm Hr (b & Hp & Hb) Hlive. unfold load_batch.
    rewrite (rootlike_to_hash _ _ _ Hr Hne), (rootlike_firstn _ _ _ Hr).
    destruct (live s (hash_of h t)) as [b1|] eqn:Hl.
    - exists b1, s. split; [reflexivity|]. split; [eapply Hlive; eauto|]. auto.
    - unfold pend in Hp. destruct (updated s (hash_of h t)) as [b1|] eqn:Hu.
      + injection Hp as ->. exists b, s. repeat (split; [solve [auto]|]). auto.
      + destruct (store s (hash_of h t)) as [[|y v]|] eqn:Hst; try discriminate. injection Hp as <-.
        exists (parse_batch (y :: v)). eexists. split; [reflexivity|]. split; [exact Hb|].
        destruct (Nat.leb limit h && Nat.eqb (h mod 4) 0); simpl; [|auto].
        split; [|auto]. intros x b' [Hx|Hx] h2 t2 Hg2 Hne2 Hm2 Hh2; [|eapply Hlive; eauto]. unfold live, map_set in Hx.
        destruct (beqb_spec x (hash_of h t)) as [He|He].
        * injection Hx as <-. subst x.
          destruct (hash_inj H Hlen G Hcf h2 t2 h t Hg2 Hg Hne2 He) as [-> ->]. exact Hb.
        * eapply Hlive; eauto.
  Qed.
End Store.
