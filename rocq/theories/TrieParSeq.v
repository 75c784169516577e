(** The program of TrieParModel.v run sequentially is the update of TrieModel.v; footprints of its parts. *)
From Verif Require Import Base TrieModel TrieSpec BaseLemmas TrieMaps TrieHash TrieStore TrieParModel TrieParGeneric.

Definition ext (p x : path) : Prop := exists q, x = p ++ q.

Lemma ext_refl p : ext p p.
Proof. exists []. symmetry. apply app_nil_r. Qed.
Lemma ext_child p b x : ext (p ++ [b]) x -> ext p x.
Proof. intros [q ->]. exists (b :: q). rewrite <- app_assoc. reflexivity. Qed.
Lemma ext_sub p q x : ext p q -> ext q x -> ext p x.
Proof. intros [a ->] [b ->]. exists (a ++ b). symmetry. apply app_assoc. Qed.
Lemma ext_length p x : ext p x -> length p <= length x.
Proof. intros [q ->]. rewrite app_length. lia. Qed.
Lemma not_ext_child loc p b : ext loc p -> ~ ext (p ++ [b]) loc.
Proof.
  intros [q ->] [r Hr]. apply (f_equal (@length bool)) in Hr. rewrite !app_length in Hr. cbn in Hr. lia.
Qed.
Lemma ext_sides p x : ext (p ++ [false]) x -> ext (p ++ [true]) x -> False.
Proof.
  intros [q ->] [r Hr]. rewrite <- !app_assoc in Hr. apply app_inv_head in Hr. discriminate.
Qed.

(** [hp'] is [hp] with batch [b] at [l]. *)
Definition upd_at (hp : path -> batch) (l : path) (b : batch) (hp' : path -> batch) : Prop :=
  hp' l = b /\ forall x, x <> l -> hp' x = hp x.

Lemma upd_refl hp l : upd_at hp l (hp l) hp.
Proof. split; auto. Qed.
Lemma upd_set hp l b hp' b' : upd_at hp l b hp' -> upd_at hp l b' (heap_set hp' l b').
Proof. intros [A B]. split; [apply heap_set_eq|]. intros x Hx. rewrite heap_set_ne by exact Hx. auto. Qed.
Lemma upd_slot hp l b hp' i v : upd_at hp l b hp' -> upd_at hp l (set_nth i v b) (heap_set hp' l (set_nth i v (hp' l))).
Proof. intros Hu. rewrite (proj1 Hu). eapply upd_set; exact Hu. Qed.

Section Seq.
  Variable H : bytes -> bytes.
  Variable limit : nat.
  Variable atomic : bool.

  Notation delete_old_p := (delete_old_p limit atomic).
  Notation store_node_p := (store_node_p limit atomic).
  Notation load_children_p := (load_children_p limit).
  Notation leaf_hash_p := (leaf_hash_p H limit atomic).
  Notation interior_hash_p := (interior_hash_p H limit atomic).
  Notation move_up_shortcut_p := (move_up_shortcut_p H limit atomic).
  Notation finish_p := (finish_p H limit atomic).
  Notation update_p := (update_p H limit atomic).
  Notation update := (update H limit atomic).

  (** The cell of an old node: nobody minds if it is the zero hash. *)
  Definition old_ok (P : cell -> Prop) (root : bytes) : Prop := to_hash root <> zero_hash -> P (CHash (to_hash root)).
  Definition node_ok (P : cell -> Prop) (root : bytes) : Prop :=
    root <> [] -> P (CHash (to_hash root)) /\ to_hash root <> zero_hash /\ firstn HashLength root = to_hash root.
  Definition slots_ok (P : cell -> Prop) (l : path) : Prop := forall j, P (CSlot l j).

  Lemma nz_cell x : x <> zero_hash -> CHash x <> Z.
  Proof. unfold Z. congruence. Qed.
  Lemma slot_nz l i : CSlot l i <> Z.
  Proof. discriminate. Qed.

  (** *** deleteOldNode *)
  Lemma delete_old_seq root h mv k d hp :
    seqp (delete_old_p root h mv k) (mk_st d hp) = seqp k (mk_st (snd (delete_old_node limit atomic root h mv d)) hp).
  Proof.
    unfold delete_old_p, TrieParModel.delete_old_p, delete_old_node, doing.
    destruct (negb atomic || mv); destruct (Nat.leb limit h); try reflexivity; destruct d; reflexivity.
  Qed.
  Lemma delete_old_foot root h mv k d hp (P : cell -> Prop) : old_ok P root ->
    foot k P (mk_st (snd (delete_old_node limit atomic root h mv d)) hp) ->
    foot (delete_old_p root h mv k) P (mk_st d hp).
  Proof.
    intros Ho. unfold TrieParModel.delete_old_p, delete_old_node, doing. cbn [snd].
    assert (Hc : forall c, c = CHash (to_hash root) /\ c <> Z -> P c /\ c <> Z).
    { intros c [-> Hz]. split; [|exact Hz]. apply Ho. intros Hq. apply Hz. rewrite Hq. reflexivity. }
    destruct (negb atomic || mv); destruct (Nat.leb limit h); cbn [foot touch act fst snd db heap live updated removed store];
    auto; destruct d; auto.
  Qed.

  (** *** addRemoveNode *)
  Lemma maybe_remove_seq root h k d hp :
    seqp (maybe_remove_p root h k) (mk_st d hp) = seqp k (mk_st (snd (maybe_remove root h d)) hp).
  Proof.
    unfold maybe_remove_p, maybe_remove, doing. destruct (_ && _); reflexivity.
  Qed.
  Lemma maybe_remove_foot root h k d hp (P : cell -> Prop) : old_ok P root ->
    foot k P (mk_st (snd (maybe_remove root h d)) hp) ->
    foot (maybe_remove_p root h k) P (mk_st d hp).
  Proof.
    intros Ho. unfold maybe_remove_p, maybe_remove, doing.
    destruct (beqb_spec (to_hash root) zero_hash) as [Hz|Hz]; cbn [negb andb]; [auto|].
    destruct (Nat.eqb (h mod 4) 0); [|auto]. intros Hf. cbn [foot touch act fst snd]. split; [|exact Hf].
    intros c ->. split; [apply Ho; exact Hz | apply nz_cell; exact Hz].
  Qed.

  (** *** storeNode *)
  Lemma store_node_seq l h old height k d hp :
    seqp (store_node_p l h old height k) (mk_st d hp) = seqp k (mk_st (snd (store_node limit atomic (hp l) h old height d)) hp).
  Proof.
    unfold TrieParModel.store_node_p, store_node. destruct (beqb h old); [reflexivity|].
    unfold doing at 1 2. cbn [seqp act fst snd]. cbv [bind]. cbn [db heap].
    destruct (Nat.leb limit height) eqn:Hl; cbn [seqp act fst snd db heap]; rewrite delete_old_seq; reflexivity.
  Qed.
  Lemma store_node_foot l h old height k d hp (P : cell -> Prop) :
    P (CHash (to_hash h)) -> to_hash h <> zero_hash -> old_ok P old -> slots_ok P l ->
    foot k P (mk_st (snd (store_node limit atomic (hp l) h old height d)) hp) ->
    foot (store_node_p l h old height k) P (mk_st d hp).
  Proof.
    intros Hn Hz Ho Hs. unfold TrieParModel.store_node_p, store_node. destruct (beqb h old); [auto|].
    assert (Hc : forall c, (c = CHash (to_hash h) \/ exists i, c = CSlot l i) -> P c /\ c <> Z).
    { intros c [->|[i ->]]; split; [exact Hn | apply nz_cell; exact Hz | apply Hs | apply slot_nz]. }
    unfold doing at 1 2. cbv [bind]. intros Hf. cbn [foot touch]. split; [exact Hc|]. cbn [act fst snd db heap].
    destruct (Nat.leb limit height) eqn:Hl; cbn [foot touch]; [split; [exact Hc|]|]; cbn [act fst snd db heap live updated removed store];
    apply delete_old_foot; auto.
  Qed.

  (** *** loadChildren *)
  Lemma load_children_seq root h p loc i d hp nb ni l r sc d' :
    load_children limit root h i (hp loc) d = (Ok (nb, ni, l, r, sc), d') ->
    exists hp', let loc' := if Nat.eqb (h mod 4) 0 then p else loc in
      upd_at hp loc' nb hp' /\
      (forall K, seqp (load_children_p root h p loc i K) (mk_st d hp) = seqp (K (Some (loc', ni, l, r, sc))) (mk_st d' hp')) /\
      (forall K (P : cell -> Prop),
         (h mod 4 = 0 -> node_ok P root /\ slots_ok P p) ->
         (h mod 4 <> 0 -> P (CSlot loc i) /\ P (CSlot loc (2 * i + 1)) /\ P (CSlot loc (2 * i + 2))) ->
         foot (K (Some (loc', ni, l, r, sc))) P (mk_st d' hp') ->
         foot (load_children_p root h p loc i K) P (mk_st d hp)).
  Proof.
    unfold load_children, TrieParModel.load_children_p. destruct (Nat.eqb_spec (h mod 4) 0) as [Hm|Hm]; cycle 1.
    { cbv [ret]. intros Hq. injection Hq as <- <- <- <- <- <-. exists hp. cbv zeta. split; [apply upd_refl|].
      split; [reflexivity|]. intros K P _ Hs Hf. destruct (Hs Hm) as (S1 & S2 & S3).
      cbn [foot touch act fst snd]. split; [intros c ->; split; [exact S1 | apply slot_nz]|].
      split; [intros c ->; split; [exact S2 | apply slot_nz]|].
      split; [intros c ->; split; [exact S3 | apply slot_nz]|]. exact Hf. }
    set (read := fun (K : option (path * nat * bytes * bytes * bool) -> prog) (ok : bool) =>
        if ok then Do (AGet p 0) (fun s0 => Do (AGet p 1) (fun l => Do (AGet p 2) (fun r =>
          K (Some (p, 0, l, r, beqb (firstn 1 s0) [x01])))))
        else K None).
    assert (Hread : forall b1 d1 hp1, upd_at hp p b1 hp1 ->
      (Ok (b1, 0, slot 1 b1, slot 2 b1, beqb (firstn 1 (slot 0 b1)) [x01]), d1) = (Ok (nb, ni, l, r, sc), d') ->
      d1 = d' /\ upd_at hp p nb hp1 /\
      (forall K, seqp (read K true) (mk_st d1 hp1) = seqp (K (Some (p, ni, l, r, sc))) (mk_st d' hp1)) /\
      (forall K (P : cell -> Prop), slots_ok P p -> foot (K (Some (p, ni, l, r, sc))) P (mk_st d' hp1) ->
         foot (read K true) P (mk_st d1 hp1))).
    { intros b1 d1 hp1 Hu Hq. injection Hq as <- <- <- <- <- <-. split; [reflexivity|]. split; [exact Hu|].
      unfold read. cbn [seqp foot touch act fst snd heap]. rewrite (proj1 Hu). split; [reflexivity|].
      intros K P Hs Hf. do 3 (split; [intros c ->; split; [apply Hs | apply slot_nz]|]). exact Hf. }
    destruct root as [|y root'].
    { cbv [bind ret]. intros Hq. pose proof (upd_set hp p _ hp (set_nth 0 [x00] empty_batch) (upd_refl hp p)) as Hu.
      destruct (Hread _ _ _ Hu Hq) as (<- & Hu' & Hr & Hf).
      exists (heap_set hp p (set_nth 0 [x00] empty_batch)). cbv zeta. split; [exact Hu'|]. split.
      - intros K. exact (Hr K).
      - intros K P Hs _ Hk. destruct (Hs Hm) as [_ Hsl]. unfold doing. cbn [foot touch]. split.
        + intros c [j ->]. split; [apply Hsl | apply slot_nz].
        + cbn [act fst snd db heap]. apply (Hf K P Hsl Hk). }
    set (root := y :: root') in *. cbv [bind ret].
    destruct (load_batch limit root h d) as [[b1| |] d1] eqn:Hlb; intros Hq; try discriminate.
    enough (Hl : exists hp', upd_at hp p b1 hp' /\
      (forall K, seqp (load_batch_p limit root h p K) (mk_st d hp) = seqp (K true) (mk_st d1 hp')) /\
      (forall K (P : cell -> Prop), node_ok P root -> slots_ok P p -> foot (K true) P (mk_st d1 hp') ->
        foot (load_batch_p limit root h p K) P (mk_st d hp))).
    { destruct Hl as (hp' & Hu & Hs & Hf). destruct (Hread _ _ _ Hu Hq) as (<- & Hu' & Hr & Hf').
      exists hp'. cbv zeta. split; [exact Hu'|]. split.
      - intros K. rewrite <- (Hr K). apply (Hs (read K)).
      - intros K P Hc _ Hk. destruct (Hc Hm) as [Hn Hsl]. apply (Hf (read K) P Hn Hsl). apply Hf'; assumption. }
    clear Hread Hq read. unfold load_batch in Hlb. unfold load_batch_p.
    assert (Hcell : forall (P : cell -> Prop), node_ok P root -> slots_ok P p ->
      forall c, (c = CHash (to_hash root) \/ exists i, c = CSlot p i) -> P c /\ c <> Z).
    { intros P Hn Hs c [->|[j ->]]; [|split; [apply Hs | apply slot_nz]].
      destruct (Hn ltac:(discriminate)) as (A & B & _). split; [exact A | apply nz_cell; exact B]. }
    destruct (live d (to_hash root)) as [b2|] eqn:L1.
    { injection Hlb as <- <-. exists (heap_set hp p b2). split; [eapply upd_set, upd_refl|]. split.
      - intros K. cbn [seqp act db]. rewrite L1. reflexivity.
      - intros K P Hn Hs Hf. cbn [foot touch]. split; [apply Hcell; assumption|].
        cbn [act db]. rewrite L1. exact Hf. }
    destruct (updated d (to_hash root)) as [b2|] eqn:L2.
    { injection Hlb as <- <-. exists (heap_set hp p b2). split; [eapply upd_set, upd_refl|]. split.
      - intros K. cbn [seqp act db]. rewrite L1. cbn [fst snd yes seqp act db]. rewrite L2. reflexivity.
      - intros K P Hn Hs Hf. cbn [foot touch]. split; [apply Hcell; assumption|].
        cbn [act db]. rewrite L1. cbn [fst snd yes foot touch act db]. split; [apply Hcell; assumption|].
        rewrite L2. exact Hf. }
    destruct (store d (firstn HashLength root)) as [[|x v]|] eqn:L3; try discriminate.
    injection Hlb as <- <-. exists (heap_set hp p (parse_batch (x :: v))). split; [eapply upd_set, upd_refl|]. split.
    - intros K. cbn [seqp act db]. rewrite L1. cbn [fst snd yes seqp act db]. rewrite L2.
      cbn [fst snd yes seqp act db]. rewrite L3. cbn [fst snd yes].
      destruct (Nat.leb limit h && Nat.eqb (h mod 4) 0); [|reflexivity].
      unfold doing. cbn [seqp act fst snd db heap]. rewrite heap_set_eq. reflexivity.
    - intros K P Hn Hs Hf. cbn [foot touch]. split; [apply Hcell; assumption|].
      cbn [act db]. rewrite L1. cbn [fst snd yes foot touch act db]. split; [apply Hcell; assumption|].
      rewrite L2. cbn [fst snd yes foot touch act db].
      destruct (Hn ltac:(discriminate)) as (_ & _ & He).
      split; [rewrite He; apply Hcell; assumption|].
      rewrite L3. cbn [fst snd yes].
      destruct (Nat.leb limit h && Nat.eqb (h mod 4) 0); [|exact Hf].
      unfold doing. cbn [foot touch]. split; [rewrite He; apply Hcell; assumption|].
      cbn [act fst snd db heap]. rewrite heap_set_eq. exact Hf.
  Qed.

  (** *** Slot assignments *)
  Lemma aset_foot l i v k d hp (P : cell -> Prop) : P (CSlot l i) ->
    foot k P (mk_st d (heap_set hp l (set_nth i v (hp l)))) -> foot (doing (ASet l i v) k) P (mk_st d hp).
  Proof.
    intros Hp Hf. unfold doing. cbn [foot touch act fst snd]. split; [|exact Hf].
    intros c ->. split; [exact Hp | apply slot_nz].
  Qed.
  Lemma aset_seq l i v k d hp :
    seqp (doing (ASet l i v) k) (mk_st d hp) = seqp k (mk_st d (heap_set hp l (set_nth i v (hp l)))).
  Proof. reflexivity. Qed.

  (** *** leafHash and interiorHash *)
  Definition hash_tail (h old : bytes) (flag : bytes) (loc : path) (i : nat) (x y : bytes) (height : nat)
    (K : bytes -> prog) : prog :=
    doing (ASet loc (2 * i + 2) y)
    (doing (ASet loc (2 * i + 1) x)
    (if Nat.eqb (height mod 4) 0
     then doing (ASet loc 0 flag) (store_node_p loc h old height (K h))
     else K h)).
  Definition hash_tail_m (h old : bytes) (flag : bytes) (b : batch) (i : nat) (x y : bytes) (height : nat)
    : M (bytes * batch) :=
    let b := set_nth (2 * i + 2) y b in
    let b := set_nth (2 * i + 1) x b in
    if Nat.eqb (height mod 4) 0 then
      let b := set_nth 0 flag b in
      _ <- store_node limit atomic b h old height ;;
      ret (h, b)
    else ret (h, b).
  Lemma store_node_total b h old height d : exists d', store_node limit atomic b h old height d = (Ok tt, d').
  Proof.
    unfold store_node. destruct (beqb h old); [cbv [ret]; eauto|]. cbv [bind]. unfold delete_old_node. eauto.
  Qed.
  Lemma hash_tail_seq h old flag loc i x y height d hp nd nb d' :
    hash_tail_m h old flag (hp loc) i x y height d = (Ok (nd, nb), d') ->
    exists hp', upd_at hp loc nb hp' /\ 
      (forall K, seqp (hash_tail h old flag loc i x y height K) (mk_st d hp) = seqp (K nd) (mk_st d' hp')) /\
      (forall K (P : cell -> Prop),
         P (CSlot loc (2 * i + 1)) -> P (CSlot loc (2 * i + 2)) ->
         (height mod 4 = 0 -> slots_ok P loc /\ P (CHash (to_hash nd)) /\ to_hash nd <> zero_hash /\ old_ok P old) ->
         foot (K nd) P (mk_st d' hp') -> foot (hash_tail h old flag loc i x y height K) P (mk_st d hp)).
  Proof.
    unfold hash_tail_m, hash_tail. cbv zeta.
    set (hp1 := heap_set hp loc (set_nth (2 * i + 2) y (hp loc))).
    set (hp2 := heap_set hp1 loc (set_nth (2 * i + 1) x (hp1 loc))).
    assert (Hu2 : upd_at hp loc (set_nth (2 * i + 1) x (set_nth (2 * i + 2) y (hp loc))) hp2).
    { apply upd_slot, upd_slot, upd_refl. }
    destruct (Nat.eqb_spec (height mod 4) 0) as [Hm|Hm].
    - cbv [bind ret].
      destruct (store_node_total (set_nth 0 flag (set_nth (2 * i + 1) x (set_nth (2 * i + 2) y (hp loc)))) h old height d) as [d1 Hd].
      rewrite Hd. intros Hq. injection Hq as <- <- <-.
      set (hp3 := heap_set hp2 loc (set_nth 0 flag (hp2 loc))).
      assert (Hu3 : upd_at hp loc (set_nth 0 flag (set_nth (2 * i + 1) x (set_nth (2 * i + 2) y (hp loc)))) hp3).
      { apply upd_slot. exact Hu2. }
      exists hp3. split; [exact Hu3|]. split.
      + intros K. rewrite !aset_seq. fold hp1. fold hp2. fold hp3. rewrite store_node_seq, (proj1 Hu3), Hd. reflexivity.
      + intros K P S1 S2 Hc Hf. destruct (Hc Hm) as (A & B & C & D). apply aset_foot; [exact S2|]. fold hp1.
        apply aset_foot; [exact S1|]. fold hp2. apply aset_foot; [apply A|]. fold hp3.
        apply store_node_foot; auto. rewrite (proj1 Hu3), Hd. exact Hf.
    - cbv [ret]. intros Hq. injection Hq as <- <- <-. exists hp2. split; [exact Hu2|]. split.
      + intros K. rewrite !aset_seq. reflexivity.
      + intros K P S1 S2 _ Hf. apply aset_foot; [exact S2|]. apply aset_foot; [exact S1|]. exact Hf.
  Qed.

  Lemma leaf_hash_seq k v old loc i height d hp nd nb d' :
    leaf_hash H limit atomic k v old (hp loc) i height d = (Ok (nd, nb), d') ->
    exists hp', upd_at hp loc nb hp' /\ 
      (forall K, seqp (leaf_hash_p k v old loc i height K) (mk_st d hp) = seqp (K nd) (mk_st d' hp')) /\
      (forall K (P : cell -> Prop),
         P (CSlot loc (2 * i + 1)) -> P (CSlot loc (2 * i + 2)) ->
         (height mod 4 = 0 -> slots_ok P loc /\ P (CHash (to_hash nd)) /\ to_hash nd <> zero_hash /\ old_ok P old) ->
         foot (K nd) P (mk_st d' hp') -> foot (leaf_hash_p k v old loc i height K) P (mk_st d hp)).
  Proof.
    intros Hq. exact (hash_tail_seq (H (k ++ v ++ [byte_of_nat height]) ++ [x01]) old [x01] loc i (k ++ [x02]) (v ++ [x02]) height d hp nd nb d' Hq).
  Qed.

  Lemma interior_hash_seq left right old loc i height d hp nd nb d' :
    interior_hash H limit atomic left right old (hp loc) i height d = (Ok (nd, nb), d') ->
    exists hp', upd_at hp loc nb hp' /\ 
      (forall K, seqp (interior_hash_p left right old loc i height K) (mk_st d hp) = seqp (K nd) (mk_st d' hp')) /\
      (forall K (P : cell -> Prop),
         P (CSlot loc (2 * i + 1)) -> P (CSlot loc (2 * i + 2)) ->
         (height mod 4 = 0 -> slots_ok P loc /\ P (CHash (to_hash nd)) /\ to_hash nd <> zero_hash /\ old_ok P old) ->
         foot (K nd) P (mk_st d' hp') -> foot (interior_hash_p left right old loc i height K) P (mk_st d hp)).
  Proof.
    intros Hq. exact (hash_tail_seq _ old [x00] loc i left right height d hp nd nb d' Hq).
  Qed.

  (** *** The common tail of the update functions *)
  Definition tail_ok (P : cell -> Prop) (p loc : path) (i h' : nat) : Prop :=
    (forall j, sd (S (h' mod 4)) i j -> P (CSlot loc j)) /\
    (i = 0 \/ S h' mod 4 = 0 -> slots_ok P loc) /\
    (h' mod 4 = 0 -> forall x, slots_ok P (p ++ [x])).

  Lemma delete_old_total root h mv d : exists d', delete_old_node limit atomic root h mv d = (Ok tt, d').
  Proof. unfold delete_old_node. eauto. Qed.

  Lemma move_up_seq shortcut root p loc i is right h' d hp nd dl nb d' : ext loc p ->
    (is = 2 * i + 1 \/ is = 2 * i + 2) -> 
    move_up_shortcut H limit atomic shortcut root (hp loc) i is h' d = (Ok (nd, dl, nb), d') ->
    exists hp', seqp (move_up_shortcut_p shortcut root p loc i is right h') (mk_st d hp) = (Some (nd, dl), mk_st d' hp') /\
      hp' loc = nb /\ (forall x, x <> loc -> ~ ext p x -> hp' x = hp x) /\
      (forall P : cell -> Prop, tail_ok P p loc i h' -> old_ok P root -> node_ok P shortcut ->
         P (CHash (to_hash nd)) -> to_hash nd <> zero_hash ->
         foot (move_up_shortcut_p shortcut root p loc i is right h') P (mk_st d hp)).
  Proof.
    intros Hext His. unfold move_up_shortcut, TrieParModel.move_up_shortcut_p. cbv [bind]. cbv zeta.
    destruct (load_children limit shortcut h' is (hp loc) d) as [[[[[[nb1 ni] sk] sv] sc]| |] d1] eqn:Hlc; try discriminate.
    destruct (load_children_seq shortcut h' (p ++ [right]) loc is d hp _ _ _ _ _ _ Hlc) as (hp1 & Hu1 & Hs1 & Hf1).
    cbv zeta in Hu1, Hs1, Hf1.
    set (loc1 := if Nat.eqb (h' mod 4) 0 then p ++ [right] else loc) in *.
    assert (Hl1 : hp1 loc = hp loc).
    { unfold loc1 in Hu1. destruct (Nat.eqb_spec (h' mod 4) 0) as [Hm|Hm].
      - apply Hu1. intros Hq. apply (not_ext_child loc p right Hext). rewrite Hq. apply ext_refl.
      - unfold load_children in Hlc. destruct (Nat.eqb_spec (h' mod 4) 0); [contradiction|].
        cbv [ret] in Hlc. injection Hlc as <- _ _ _ _ _. exact (proj1 Hu1). }
    assert (Ho1 : forall x, x <> loc -> ~ ext p x -> hp1 x = hp x).
    { intros x Hx He. apply Hu1. unfold loc1. destruct (Nat.eqb (h' mod 4) 0); [|exact Hx].
      intros ->. apply He. exists [right]. reflexivity. }
    set (new := H (firstn HashLength sk ++ firstn HashLength sv ++ [byte_of_nat (S h')]) ++ [x01]).
    assert (Hload : forall P : cell -> Prop, tail_ok P p loc i h' -> node_ok P shortcut ->
      (h' mod 4 = 0 -> node_ok P shortcut /\ slots_ok P (p ++ [right])) /\
      (h' mod 4 <> 0 -> P (CSlot loc is) /\ P (CSlot loc (2 * is + 1)) /\ P (CSlot loc (2 * is + 2)))).
    { intros P (T1 & T2 & T3) Hn. split; [intros Hm; split; [exact Hn | apply T3; exact Hm]|].
      intros Hm. destruct (h' mod 4) as [|n] eqn:Hn4; [congruence|].
      split; [|split]; apply T1; cbn [sd]; destruct His as [-> | ->]; auto 10. }
    set (ha := fun (h : path -> batch) j v => heap_set h loc (set_nth j v (h loc))).
    assert (Hha : forall b h j v, (h loc = b /\ forall x, x <> loc -> ~ ext p x -> h x = hp x) ->
              (ha h j v loc = set_nth j v b /\ forall x, x <> loc -> ~ ext p x -> ha h j v x = hp x)).
    { intros b h j v [A B]. unfold ha. rewrite heap_set_eq, A. split; [reflexivity|].
      intros x Hx He. rewrite heap_set_ne by exact Hx. auto. }
    pose proof (conj Hl1 Ho1) as H1.
    destruct (Nat.eqb_spec i 0) as [Hi|Hi].
    - set (b5 := set_nth (2 * is + 2) [] (set_nth (2 * is + 1) [] (set_nth (2 * i + 2) sv (set_nth (2 * i + 1) sk (set_nth 0 [x01] (hp loc)))))).
      destruct (store_node_total b5 new root (S h') d1) as [d2 Hd2].
      rewrite Hd2. unfold b5 in Hd2 |- *. cbv [ret]. intros Hq. injection Hq as <- <- <- <-.
      set (hp5 := ha (ha (ha (ha (ha hp1 0 [x01]) (2 * i + 1) sk) (2 * i + 2) sv) (2 * is + 1) []) (2 * is + 2) []).
      pose proof (Hha _ _ (2 * is + 2) [] (Hha _ _ (2 * is + 1) [] (Hha _ _ (2 * i + 2) sv (Hha _ _ (2 * i + 1) sk (Hha _ _ 0 [x01] H1))))) as Hh5.
      fold hp5 in Hh5. exists hp5. split; [|split; [apply Hh5|split; [apply Hh5|]]].
      + rewrite Hs1. rewrite !aset_seq. fold (ha hp1 0 [x01]).
        change (seqp (store_node_p loc new root (S h') (Ret (Some (new, true)))) (mk_st d1 hp5) = (Some (new, true), mk_st d2 hp5)).
        rewrite store_node_seq, (proj1 Hh5). exact (f_equal (fun r => (Some (new, true), mk_st (snd r) hp5)) Hd2).
      + intros P Ht Ho Hn Hp Hz. destruct (Hload P Ht Hn) as [C1 C2]. destruct Ht as (T1 & T2 & T3).
        specialize (T2 (or_introl Hi)). apply Hf1; [exact C1 | exact C2|].
        do 5 (apply aset_foot; [apply T2|]).
        change (foot (store_node_p loc new root (S h') (Ret (Some (new, true)))) P (mk_st d1 hp5)).
        apply store_node_foot; auto. exact I.
    - destruct (Nat.eqb_spec (h' mod 4) 0) as [Hm|Hm].
      + destruct (delete_old_total shortcut (S h') true d1) as [d2 Hd2]. rewrite Hd2. cbv [ret].
        intros Hq. injection Hq as <- <- <- <-.
        set (hp3 := ha (ha hp1 (2 * i + 1) sk) (2 * i + 2) sv).
        pose proof (Hha _ _ (2 * i + 2) sv (Hha _ _ (2 * i + 1) sk H1)) as Hh3. fold hp3 in Hh3.
        exists hp3. split; [|split; [apply Hh3|split; [apply Hh3|]]].
        * rewrite Hs1. rewrite !aset_seq.
          change (seqp (delete_old_p shortcut (S h') true (Ret (Some (new, true)))) (mk_st d1 hp3) = (Some (new, true), mk_st d2 hp3)).
          rewrite delete_old_seq, Hd2. reflexivity.
        * intros P Ht Ho Hn Hp Hz. destruct (Hload P Ht Hn) as [C1 C2]. destruct Ht as (T1 & T2 & T3).
          apply Hf1; [exact C1 | exact C2|].
          apply aset_foot; [apply T1; cbn [sd]; auto|]. apply aset_foot; [apply T1; cbn [sd]; auto|].
          apply delete_old_foot; [|exact I]. intros Hnz. apply Hn. intros ->. apply Hnz. reflexivity.
      + cbv [ret]. intros Hq. injection Hq as <- <- <- <-.
        set (hp5 := ha (ha (ha (ha hp1 (2 * i + 1) sk) (2 * i + 2) sv) (2 * is + 1) []) (2 * is + 2) []).
        pose proof (Hha _ _ (2 * is + 2) [] (Hha _ _ (2 * is + 1) [] (Hha _ _ (2 * i + 2) sv (Hha _ _ (2 * i + 1) sk H1)))) as Hh5.
        fold hp5 in Hh5. exists hp5. split; [|split; [apply Hh5|split; [apply Hh5|]]].
        * rewrite Hs1. rewrite !aset_seq. reflexivity.
        * intros P Ht Ho Hn Hp Hz. destruct (Hload P Ht Hn) as [C1 C2]. destruct Ht as (T1 & T2 & T3).
          destruct (C2 Hm) as (_ & C3 & C4). apply Hf1; [exact C1 | exact C2|].
          apply aset_foot; [apply T1; cbn [sd]; auto|]. apply aset_foot; [apply T1; cbn [sd]; auto|].
          apply aset_foot; [exact C3|]. apply aset_foot; [exact C4|]. exact I.
  Qed.

  Lemma finish_seq left right del root p loc i h' d hp nd dl nb d' : ext loc p ->
    finish H limit atomic left right del root (hp loc) i h' d = (Ok (nd, dl, nb), d') ->
    exists hp', seqp (finish_p left right del root p loc i h') (mk_st d hp) = (Some (nd, dl), mk_st d' hp') /\
      hp' loc = nb /\ (forall x, x <> loc -> ~ ext p x -> hp' x = hp x) /\
      (forall P : cell -> Prop, tail_ok P p loc i h' -> old_ok P root -> node_ok P left -> node_ok P right ->
         (nd <> [] -> P (CHash (to_hash nd)) /\ to_hash nd <> zero_hash) ->
         foot (finish_p left right del root p loc i h') P (mk_st d hp)).
  Proof.
    intros Hext.
    assert (Hhash : forall (t : M (bytes * bool * batch)),
      t = ('(node, b) <- interior_hash H limit atomic left right root (hp loc) i (S h') ;; ret (node, false, b)) ->
      t d = (Ok (nd, dl, nb), d') ->
      let hash := interior_hash_p left right root loc i (S h') (fun node => Ret (Some (node, false))) in
      exists hp', seqp hash (mk_st d hp) = (Some (nd, dl), mk_st d' hp') /\
      hp' loc = nb /\ (forall x, x <> loc -> ~ ext p x -> hp' x = hp x) /\
      (forall P : cell -> Prop, tail_ok P p loc i h' -> old_ok P root -> node_ok P left -> node_ok P right ->
         (nd <> [] -> P (CHash (to_hash nd)) /\ to_hash nd <> zero_hash) ->
         foot hash P (mk_st d hp))).
    { intros t ->. cbv [bind].
      destruct (interior_hash H limit atomic left right root (hp loc) i (S h') d) as [[[nd1 nb1]| |] d1] eqn:Hih; try discriminate.
      cbv [ret]. intros Hq. injection Hq as <- <- <- <-.
      assert (Hnn : nd1 <> []).
      { unfold interior_hash in Hih. cbv zeta in Hih.
        assert (Hx : forall z, z ++ [x00] <> ([] : bytes)) by (intros z Hz; apply app_eq_nil in Hz as [_ Hz]; discriminate).
        destruct (Nat.eqb (S h' mod 4) 0); cbv [bind ret] in Hih.
        - destruct (store_node _ _ _ _ _ _ _) as [[u| |] d2]; try discriminate. injection Hih as <- _ _. apply Hx.
        - injection Hih as <- _ _. apply Hx. }
      destruct (interior_hash_seq _ _ _ _ _ _ _ _ _ _ _ Hih) as (hp' & Hu & Hs & Hf).
      exists hp'. cbv zeta. split; [rewrite Hs; reflexivity|]. split; [apply Hu|].
      split; [intros x Hx _; apply Hu; exact Hx|].
      intros P (T1 & T2 & T3) Ho _ _ Hn. destruct (Hn Hnn) as [N1 N2]. apply Hf; [apply T1; cbn [sd]; auto..| |exact I].
      intros Hm. split; [apply T2; right; exact Hm|]. auto. }
    unfold finish, TrieParModel.finish_p. cbv zeta. destruct del; [|intros Hq; exact (Hhash _ eq_refl Hq)].
    unfold maybe_move_up. destruct left as [|ly ly']; destruct right as [|ry ry'].
    - destruct (Nat.eqb_spec i 0) as [Hi|Hi].
      + cbv [bind]. destruct (delete_old_total root (S h') true d) as [d2 Hd2]. rewrite Hd2. cbv [ret].
        intros Hq. injection Hq as <- <- <- <-. exists hp. split; [rewrite delete_old_seq, Hd2; reflexivity|].
        split; [reflexivity|]. split; [auto|]. intros P _ Ho _ _ _. apply delete_old_foot; [exact Ho | exact I].
      + cbv [bind ret]. intros Hq. injection Hq as <- <- <- <-. eexists. split; [rewrite !aset_seq; reflexivity|].
        split; [rewrite !heap_set_eq; reflexivity|]. split; [intros x Hx _; rewrite !heap_set_ne by exact Hx; reflexivity|].
        intros P (T1 & _) _ _ _ _. apply aset_foot; [apply T1; cbn [sd]; auto|].
        apply aset_foot; [apply T1; cbn [sd]; auto|]. exact I.
    - destruct (beqb (firstn 1 (skipn HashLength (ry :: ry'))) [x01]).
      + cbv [bind]. destruct (move_up_shortcut H limit atomic (ry :: ry') root (hp loc) i (2 * i + 2) h' d) as [[[[nd1 dl1] nb1]| |] d1] eqn:Hmu;
        try discriminate. cbv [ret]. intros Hq. injection Hq as <- <- <- <-.
        destruct (move_up_seq _ _ p loc i _ true h' _ _ _ _ _ _ Hext (or_intror eq_refl) Hmu) as (hp' & A & B & C & D).
        exists hp'. split; [exact A|]. split; [exact B|]. split; [exact C|].
        intros P Ht Ho _ Hr Hn. destruct Hn as [N1 N2]; [|apply D; assumption].
        intros ->. unfold move_up_shortcut in Hmu. cbv [bind] in Hmu.
        destruct (load_children limit _ h' _ (hp loc) d) as [[[[[[nb2 ni] sk] sv] sc]| |] d2]; try discriminate.
        assert (Hx : forall z, z ++ [x01] <> ([] : bytes)) by (intros z Hz; apply app_eq_nil in Hz as [_ Hz]; discriminate).
        destruct (Nat.eqb i 0); [|destruct (Nat.eqb (h' mod 4) 0)].
        * destruct (store_node _ _ _ _ _ _ _) as [[u| |] d3]; try discriminate. cbv [ret] in Hmu. injection Hmu as Hm _ _ _. exact (Hx _ Hm).
        * destruct (delete_old_node _ _ _ _ _ _) as [[u| |] d3]; try discriminate. cbv [ret] in Hmu. injection Hmu as Hm _ _ _. exact (Hx _ Hm).
        * cbv [ret] in Hmu. injection Hmu as Hm _ _ _. exact (Hx _ Hm).
      + intros Hq. exact (Hhash _ eq_refl Hq).
    - destruct (beqb (firstn 1 (skipn HashLength (ly :: ly'))) [x01]).
      + cbv [bind]. destruct (move_up_shortcut H limit atomic (ly :: ly') root (hp loc) i (2 * i + 1) h' d) as [[[[nd1 dl1] nb1]| |] d1] eqn:Hmu;
        try discriminate. cbv [ret]. intros Hq. injection Hq as <- <- <- <-.
        destruct (move_up_seq _ _ p loc i _ false h' _ _ _ _ _ _ Hext (or_introl eq_refl) Hmu) as (hp' & A & B & C & D).
        exists hp'. split; [exact A|]. split; [exact B|]. split; [exact C|].
        intros P Ht Ho Hl _ Hn. destruct Hn as [N1 N2]; [|apply D; assumption].
        intros ->. unfold move_up_shortcut in Hmu. cbv [bind] in Hmu.
        destruct (load_children limit _ h' _ (hp loc) d) as [[[[[[nb2 ni] sk] sv] sc]| |] d2]; try discriminate.
        assert (Hx : forall z, z ++ [x01] <> ([] : bytes)) by (intros z Hz; apply app_eq_nil in Hz as [_ Hz]; discriminate).
        destruct (Nat.eqb i 0); [|destruct (Nat.eqb (h' mod 4) 0)].
        * destruct (store_node _ _ _ _ _ _ _) as [[u| |] d3]; try discriminate. cbv [ret] in Hmu. injection Hmu as Hm _ _ _. exact (Hx _ Hm).
        * destruct (delete_old_node _ _ _ _ _ _) as [[u| |] d3]; try discriminate. cbv [ret] in Hmu. injection Hmu as Hm _ _ _. exact (Hx _ Hm).
        * cbv [ret] in Hmu. injection Hmu as Hm _ _ _. exact (Hx _ Hm).
      + intros Hq. exact (Hhash _ eq_refl Hq).
    - intros Hq. exact (Hhash _ eq_refl Hq).
  Qed.
End Seq.
