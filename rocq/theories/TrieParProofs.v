(** The parallel update of the trie: one schedule is the sequential update, and the halves do not meet. *)
From Verif Require Import Base TrieModel TrieSpec BaseLemmas TrieMaps TrieHash TrieStore TrieBatch TrieUpdate
  TrieParModel TrieParGeneric TrieParSeq.

Section Par.
  Variable H : bytes -> bytes.
  Variable limit : nat.
  Variable atomic : bool.

  Notation delete_old_p := (delete_old_p limit atomic).
  Notation load_children_p := (load_children_p limit).
  Notation leaf_hash_p := (leaf_hash_p H limit atomic).
  Notation finish_p := (finish_p H limit atomic).
  Notation update_p := (update_p H limit atomic).
  Notation update := (update H limit atomic).
  Notation cont := (cont H limit atomic).

  Definition cont_p (h' : nat) (root : bytes) (p loc : path) (ni : nat) (kvs : list (bytes * bytes))
    (lNode rNode : bytes) : prog :=
    match lNode, rNode, kvs with
    | [], [], [(k, v)] =>
        if beqb DefaultLeaf v then Ret (Some ([], true))
        else
          maybe_remove_p root (S h')
            (leaf_hash_p k v root loc ni (S h') (fun node => Ret (Some (node, false))))
    | _, _, _ =>
        let (lkvs, rkvs) := split_keys kvs (TrieHeight - S h') in
        maybe_remove_p root (S h')
          match lkvs, rkvs with
          | [], _ :: _ =>
              bindp (update_p h' rNode kvs (p ++ [true]) loc (2 * ni + 2)) (fun r =>
              match r with
              | None => Ret None
              | Some (r, del) => finish_p lNode r del root p loc ni h'
              end)
          | _ :: _, [] =>
              bindp (update_p h' lNode kvs (p ++ [false]) loc (2 * ni + 1)) (fun l =>
              match l with
              | None => Ret None
              | Some (l, del) => finish_p l rNode del root p loc ni h'
              end)
          | _, _ =>
              Par (update_p h' lNode lkvs (p ++ [false]) loc (2 * ni + 1))
                  (update_p h' rNode rkvs (p ++ [true]) loc (2 * ni + 2))
                  (fun l r =>
                   match l, r with
                   | Some (l, ldel), Some (r, rdel) =>
                       finish_p l r (ldel || rdel) root p loc ni h'
                   | _, _ => Ret None
                   end)
          end
    end.

  Lemma update_p_S h' root kv kvs p loc i :
    update_p (S h') root (kv :: kvs) p loc i =
    load_children_p root (S h') p loc i (fun o =>
    match o with
    | None => Ret None
    | Some (loc', ni, lNode, rNode, isShortcut) =>
        if isShortcut then
          let kvs := maybe_add_shortcut (kv :: kvs) (firstn HashLength lNode) (firstn HashLength rNode) in
          let clear :=
            doing (ASet loc' (2 * ni + 1) [])
            (doing (ASet loc' (2 * ni + 2) [])
            match kvs with
            | [] => Ret (Some ([], true))
            | _ :: _ => cont_p h' root p loc' ni kvs [] []
            end) in
          if Nat.eqb ni 0 then delete_old_p root (S h') false clear else clear
        else cont_p h' root p loc' ni (kv :: kvs) lNode rNode
    end).
  Proof. destruct kv as [k v]. reflexivity. Qed.

  Definition seq_spec (h : nat) : Prop := forall root kvs p loc i d hp nd dl b' d',
    (h mod 4 <> 0 -> ext loc p) ->
    update h root kvs (hp loc) i d = (Ok (nd, dl, b'), d') ->
    exists hp', seqp (update_p h root kvs p loc i) (mk_st d hp) = (Some (nd, dl), mk_st d' hp') /\
      (h mod 4 <> 0 -> hp' loc = b' /\ forall l, l <> loc -> ~ ext p l -> hp' l = hp l) /\
      (h mod 4 = 0 -> b' = hp loc /\ forall l, ~ ext p l -> hp' l = hp l).

  (** The same seen from the node above. *)
  Lemma seq_child h root kvs p x loc i d hp nd dl b' d' : seq_spec h -> ext loc p ->
    update h root kvs (hp loc) i d = (Ok (nd, dl, b'), d') ->
    exists hp', seqp (update_p h root kvs (p ++ [x]) loc i) (mk_st d hp) = (Some (nd, dl), mk_st d' hp') /\
      hp' loc = b' /\ forall l, l <> loc -> ~ ext p l -> hp' l = hp l.
  Proof.
    intros IH He Hu. destruct (IH root kvs (p ++ [x]) loc i d hp nd dl b' d') as (hp' & A & B & C); [|exact Hu|].
    { intros _. destruct He as [q ->]. exists (q ++ [x]). symmetry. apply app_assoc. }
    exists hp'. split; [exact A|]. destruct (Nat.eq_dec (h mod 4) 0) as [Hm|Hm].
    - destruct (C Hm) as [-> C2]. split; [apply C2; apply not_ext_child; exact He|].
      intros l _ Hl. apply C2. intros Hx. apply Hl. eapply ext_child; exact Hx.
    - destruct (B Hm) as [B1 B2]. split; [exact B1|]. intros l Hn Hl. apply B2; [exact Hn|].
      intros Hx. apply Hl. eapply ext_child; exact Hx.
  Qed.

  Lemma finish_out left right del root b p loc i h' d hp nd dl b' d' : ext loc p ->
    ('(node, dl, nb) <- finish H limit atomic left right del root (hp loc) i h' ;;
     ret (node, dl, if Nat.eqb (S h' mod 4) 0 then b else nb)) d = (Ok (nd, dl, b'), d') ->
    exists hp', seqp (finish_p left right del root p loc i h') (mk_st d hp) = (Some (nd, dl), mk_st d' hp') /\
      b' = (if Nat.eqb (S h' mod 4) 0 then b else hp' loc) /\ (forall x, x <> loc -> ~ ext p x -> hp' x = hp x) /\
      (forall P : cell -> Prop, tail_ok P p loc i h' -> old_ok P root -> node_ok P left -> node_ok P right ->
         (nd <> [] -> P (CHash (to_hash nd)) /\ to_hash nd <> zero_hash) ->
         foot (finish_p left right del root p loc i h') P (mk_st d hp)).
  Proof.
    intros He. cbv [bind].
    destruct (finish H limit atomic left right del root (hp loc) i h' d) as [[[[n1 d1] b1]| |] s1] eqn:Hf; try discriminate.
    cbv [ret]. intros Hq. injection Hq as <- <- <- <-.
    destruct (finish_seq H limit atomic _ _ _ _ _ _ _ _ _ _ _ _ _ _ He Hf) as (hp' & A & B & C & D).
    exists hp'. split; [exact A|]. split; [rewrite B; reflexivity|]. auto.
  Qed.

  Lemma maybe_remove_total root h d : exists d', maybe_remove root h d = (Ok tt, d').
  Proof. unfold maybe_remove. destruct (_ && _); [unfold add_remove_node | unfold ret]; eauto. Qed.

  Lemma cont_seq h' root b p loc ni kvs lNode rNode d hp nd dl b' d' : seq_spec h' -> ext loc p ->
    cont h' root b ni kvs (hp loc) lNode rNode d = (Ok (nd, dl, b'), d') ->
    exists hp', seqp (cont_p h' root p loc ni kvs lNode rNode) (mk_st d hp) = (Some (nd, dl), mk_st d' hp') /\
      b' = (if Nat.eqb (S h' mod 4) 0 then b else hp' loc) /\ forall x, x <> loc -> ~ ext p x -> hp' x = hp x.
  Proof.
    intros IH He.
    assert (Hgen : (let (lkvs, rkvs) := split_keys kvs (TrieHeight - S h') in
        _ <- maybe_remove root (S h') ;;
        match lkvs, rkvs with
        | [], _ :: _ =>
            '(r, del, nb) <- update h' rNode kvs (hp loc) (2 * ni + 2) ;;
            '(node, d, nb) <- finish H limit atomic lNode r del root nb ni h' ;;
            ret (node, d, if Nat.eqb (S h' mod 4) 0 then b else nb)
        | _ :: _, [] =>
            '(l, del, nb) <- update h' lNode kvs (hp loc) (2 * ni + 1) ;;
            '(node, d, nb) <- finish H limit atomic l rNode del root nb ni h' ;;
            ret (node, d, if Nat.eqb (S h' mod 4) 0 then b else nb)
        | _, _ =>
            '(l, ldel, nb) <- update h' lNode lkvs (hp loc) (2 * ni + 1) ;;
            '(r, rdel, nb) <- update h' rNode rkvs nb (2 * ni + 2) ;;
            '(node, d, nb) <- finish H limit atomic l r (ldel || rdel) root nb ni h' ;;
            ret (node, d, if Nat.eqb (S h' mod 4) 0 then b else nb)
        end) d = (Ok (nd, dl, b'), d') ->
      exists hp', seqp (let (lkvs, rkvs) := split_keys kvs (TrieHeight - S h') in
        maybe_remove_p root (S h')
          match lkvs, rkvs with
          | [], _ :: _ =>
              bindp (update_p h' rNode kvs (p ++ [true]) loc (2 * ni + 2)) (fun r =>
              match r with
              | None => Ret None
              | Some (r, del) => finish_p lNode r del root p loc ni h'
              end)
          | _ :: _, [] =>
              bindp (update_p h' lNode kvs (p ++ [false]) loc (2 * ni + 1)) (fun l =>
              match l with
              | None => Ret None
              | Some (l, del) => finish_p l rNode del root p loc ni h'
              end)
          | _, _ =>
              Par (update_p h' lNode lkvs (p ++ [false]) loc (2 * ni + 1))
                  (update_p h' rNode rkvs (p ++ [true]) loc (2 * ni + 2))
                  (fun l r =>
                   match l, r with
                   | Some (l, ldel), Some (r, rdel) =>
                       finish_p l r (ldel || rdel) root p loc ni h'
                   | _, _ => Ret None
                   end)
          end) (mk_st d hp) = (Some (nd, dl), mk_st d' hp') /\
      b' = (if Nat.eqb (S h' mod 4) 0 then b else hp' loc) /\ forall x, x <> loc -> ~ ext p x -> hp' x = hp x).
    { destruct (split_keys kvs (TrieHeight - S h')) as [lkvs rkvs]. unfold bind at 1.
      destruct (maybe_remove_total root (S h') d) as [d1 Hd1]. rewrite Hd1. rewrite maybe_remove_seq, Hd1. cbn [snd].
      assert (Hboth :
        ('(l, ldel, nb) <- update h' lNode lkvs (hp loc) (2 * ni + 1) ;;
         '(r, rdel, nb) <- update h' rNode rkvs nb (2 * ni + 2) ;;
         '(node, d, nb) <- finish H limit atomic l r (ldel || rdel) root nb ni h' ;;
         ret (node, d, if Nat.eqb (S h' mod 4) 0 then b else nb)) d1 = (Ok (nd, dl, b'), d') ->
        exists hp', seqp (Par (update_p h' lNode lkvs (p ++ [false]) loc (2 * ni + 1))
                  (update_p h' rNode rkvs (p ++ [true]) loc (2 * ni + 2))
                  (fun l r =>
                   match l, r with
                   | Some (l, ldel), Some (r, rdel) =>
                       finish_p l r (ldel || rdel) root p loc ni h'
                   | _, _ => Ret None
                   end)) (mk_st d1 hp) = (Some (nd, dl), mk_st d' hp') /\
        b' = (if Nat.eqb (S h' mod 4) 0 then b else hp' loc) /\ forall x, x <> loc -> ~ ext p x -> hp' x = hp x).
      { unfold bind at 1.
        destruct (update h' lNode lkvs (hp loc) (2 * ni + 1) d1) as [[[[l ldel] nb1]| |] d2] eqn:U1; try discriminate.
        destruct (seq_child _ _ _ p false loc _ _ _ _ _ _ _ IH He U1) as (hp1 & A1 & A2 & A3). rewrite <- A2.
        unfold bind at 1.
        destruct (update h' rNode rkvs (hp1 loc) (2 * ni + 2) d2) as [[[[r rdel] nb2]| |] d3] eqn:U2; try discriminate.
        destruct (seq_child _ _ _ p true loc _ _ _ _ _ _ _ IH He U2) as (hp2 & B1 & B2 & B3). rewrite <- B2.
        intros Hf. destruct (finish_out _ _ _ _ _ p loc ni h' d3 hp2 _ _ _ _ He Hf) as (hp3 & C1 & C2 & C3 & _).
        exists hp3. cbn [seqp]. rewrite A1. cbn [fst snd]. rewrite B1. cbn [fst snd]. split; [exact C1|].
        split; [exact C2|]. intros x Hx Hn. rewrite C3, B3, A3 by assumption. reflexivity. }
      destruct lkvs as [|kvl lkvs]; destruct rkvs as [|kvr rkvs]; try exact Hboth; clear Hboth; unfold bind at 1.
      - destruct (update h' rNode kvs (hp loc) (2 * ni + 2) d1) as [[[[r rdel] nb2]| |] d3] eqn:U2; try discriminate.
        destruct (seq_child _ _ _ p true loc _ _ _ _ _ _ _ IH He U2) as (hp2 & B1 & B2 & B3). rewrite <- B2.
        intros Hf. destruct (finish_out _ _ _ _ _ p loc ni h' d3 hp2 _ _ _ _ He Hf) as (hp3 & C1 & C2 & C3 & _).
        exists hp3. rewrite seqp_bind, B1. cbn [fst snd]. split; [exact C1|]. split; [exact C2|].
        intros x Hx Hn. rewrite C3, B3 by assumption. reflexivity.
      - destruct (update h' lNode kvs (hp loc) (2 * ni + 1) d1) as [[[[l ldel] nb1]| |] d2] eqn:U1; try discriminate.
        destruct (seq_child _ _ _ p false loc _ _ _ _ _ _ _ IH He U1) as (hp1 & A1 & A2 & A3). rewrite <- A2.
        intros Hf. destruct (finish_out _ _ _ _ _ p loc ni h' d2 hp1 _ _ _ _ He Hf) as (hp3 & C1 & C2 & C3 & _).
        exists hp3. rewrite seqp_bind, A1. cbn [fst snd]. split; [exact C1|]. split; [exact C2|].
        intros x Hx Hn. rewrite C3, A3 by assumption. reflexivity. }
    unfold TrieUpdate.cont, cont_p. cbv zeta.
    destruct lNode as [|? ?]; [|exact Hgen]. destruct rNode as [|? ?]; [|exact Hgen].
    destruct kvs as [|[k v] [|kv kvs]]; [exact Hgen | clear Hgen | exact Hgen].
    destruct (beqb DefaultLeaf v).
    - cbv [ret]. intros Hq. injection Hq as <- <- <- <-. exists hp. auto.
    - unfold bind at 1. destruct (maybe_remove_total root (S h') d) as [d1 Hd1]. rewrite Hd1.
      rewrite maybe_remove_seq, Hd1. cbn [snd]. unfold bind at 1.
      destruct (leaf_hash H limit atomic k v root (hp loc) ni (S h') d1) as [[[n1 b1]| |] d2] eqn:Hlh; try discriminate.
      cbv [ret]. intros Hq. injection Hq as <- <- <- <-.
      destruct (leaf_hash_seq H limit atomic _ _ _ _ _ _ _ _ _ _ _ Hlh) as (hp' & [A1 A2] & A3 & _).
      exists hp'. rewrite A3. split; [reflexivity|]. rewrite A1. auto.
  Qed.

  Lemma update_seq h : seq_spec h.
  Proof.
    induction h as [|h' IH]; intros root [|[k0 v0] kvs] p loc i d hp nd dl b' d' He.
    - cbn [TrieModel.update]. cbv [ret]. intros Hq. injection Hq as <- <- <- <-. exists hp. split; [reflexivity|]. auto.
    - cbn [TrieModel.update TrieParModel.update_p]. destruct (beqb DefaultLeaf v0).
      + unfold bind at 1. destruct (delete_old_total limit atomic root 0 false d) as [d1 Hd1]. rewrite Hd1.
        cbv [ret]. intros Hq. injection Hq as <- <- <- <-. exists hp. rewrite delete_old_seq, Hd1.
        split; [reflexivity|]. split; [intros Hz0; exfalso; apply Hz0; reflexivity|]. auto.
      + unfold bind at 1.
        destruct (leaf_hash H limit atomic k0 v0 root empty_batch 0 0 d) as [[[n1 b1]| |] d2] eqn:Hlh; try discriminate.
        cbv [ret]. intros Hq. injection Hq as <- <- <- <-.
        rewrite <- (heap_set_eq hp p empty_batch) in Hlh.
        destruct (leaf_hash_seq H limit atomic _ _ _ _ _ _ _ _ _ _ _ Hlh) as (hp' & [A1 A2] & A3 & _).
        exists hp'. unfold doing at 1. cbn [seqp act fst snd db heap]. rewrite A3. split; [reflexivity|].
        split; [intros Hz0; exfalso; apply Hz0; reflexivity|]. intros _. split; [reflexivity|]. intros l Hl.
        assert (l <> p) by (intros ->; apply Hl, ext_refl). rewrite A2, heap_set_ne by assumption. reflexivity.
    - cbn [TrieModel.update]. cbv [ret]. intros Hq. injection Hq as <- <- <- <-. exists hp. split; [reflexivity|]. auto.
    - rewrite update_S, update_p_S. unfold bind at 1.
      destruct (load_children limit root (S h') i (hp loc) d) as [[[[[[nb ni] l] r] sc]| |] d1] eqn:Hlc; try discriminate.
      destruct (load_children_seq limit root (S h') p loc i d hp _ _ _ _ _ _ Hlc) as (hp1 & Hu & Hs & _).
      cbv zeta in Hu, Hs. rewrite Hs. clear Hs.
      set (loc' := if Nat.eqb (S h' mod 4) 0 then p else loc) in *.
      assert (He' : ext loc' p).
      { unfold loc'. destruct (Nat.eqb_spec (S h' mod 4) 0) as [Hm|Hm]; [apply ext_refl | apply He; exact Hm]. }
      intros Hrun. enough (Hsuff : exists hp', seqp (if sc then
            let kvs0 := maybe_add_shortcut ((k0, v0) :: kvs) (firstn HashLength l) (firstn HashLength r) in
            let clear :=
              doing (ASet loc' (2 * ni + 1) [])
              (doing (ASet loc' (2 * ni + 2) [])
              match kvs0 with
              | [] => Ret (Some ([], true))
              | _ :: _ => cont_p h' root p loc' ni kvs0 [] []
              end) in
            if Nat.eqb ni 0 then delete_old_p root (S h') false clear else clear
          else cont_p h' root p loc' ni ((k0, v0) :: kvs) l r) (mk_st d1 hp1) = (Some (nd, dl), mk_st d' hp') /\
          b' = (if Nat.eqb (S h' mod 4) 0 then hp loc else hp' loc') /\
          forall x, x <> loc' -> ~ ext p x -> hp' x = hp1 x).
      { destruct Hsuff as (hp' & A & B & C). exists hp'. split; [exact A|]. unfold loc' in *.
        destruct (Nat.eqb_spec (S h' mod 4) 0) as [Hm|Hm].
        - split; [congruence|]. intros _. split; [exact B|]. intros x Hx.
          assert (x <> p) by (intros ->; apply Hx, ext_refl). rewrite C by assumption. apply Hu. assumption.
        - split; [|congruence]. intros _. split; [congruence|]. intros x Hn Hx. rewrite C by assumption. apply Hu. exact Hn. }
      revert Hrun. rewrite <- (proj1 Hu). destruct sc; cycle 1.
      { intros Hc. exact (cont_seq h' root (hp loc) p loc' ni _ _ _ d1 hp1 _ _ _ _ IH He' Hc). }
      cbv zeta. set (kvs2 := maybe_add_shortcut ((k0, v0) :: kvs) (firstn HashLength l) (firstn HashLength r)).
      unfold bind at 1.
      set (hp3 := heap_set (heap_set hp1 loc' (set_nth (2 * ni + 1) [] (hp1 loc'))) loc'
                    (set_nth (2 * ni + 2) [] (heap_set hp1 loc' (set_nth (2 * ni + 1) [] (hp1 loc')) loc'))).
      assert (Hu3 : upd_at hp1 loc' (set_nth (2 * ni + 2) [] (set_nth (2 * ni + 1) [] (hp1 loc'))) hp3).
      { apply upd_slot, upd_slot, upd_refl. }
      assert (Hcl : forall d2,
         match kvs2 with
         | [] => ret ([], true, if Nat.eqb (S h' mod 4) 0 then hp loc
                                else set_nth (2 * ni + 2) [] (set_nth (2 * ni + 1) [] (hp1 loc')))
         | _ :: _ => cont h' root (hp loc) ni kvs2 (set_nth (2 * ni + 2) [] (set_nth (2 * ni + 1) [] (hp1 loc'))) [] []
         end d2 = (Ok (nd, dl, b'), d') ->
         exists hp', seqp (doing (ASet loc' (2 * ni + 1) [])
              (doing (ASet loc' (2 * ni + 2) [])
              match kvs2 with
              | [] => Ret (Some ([], true))
              | _ :: _ => cont_p h' root p loc' ni kvs2 [] []
              end)) (mk_st d2 hp1) = (Some (nd, dl), mk_st d' hp') /\
          b' = (if Nat.eqb (S h' mod 4) 0 then hp loc else hp' loc') /\
          forall x, x <> loc' -> ~ ext p x -> hp' x = hp1 x).
      { intros d2. rewrite !aset_seq. fold hp3. destruct kvs2 as [|kv2 kvs2].
        - cbv [ret]. intros Hq. injection Hq as <- <- <- <-. exists hp3. split; [reflexivity|].
          rewrite (proj1 Hu3). split; [reflexivity|]. intros x Hx _. apply Hu3. exact Hx.
        - rewrite <- (proj1 Hu3). intros Hc.
          destruct (cont_seq h' root (hp loc) p loc' ni _ _ _ d2 hp3 _ _ _ _ IH He' Hc) as (hp' & A & B & C).
          exists hp'. split; [exact A|]. split; [exact B|]. intros x Hx Hn. rewrite C by assumption. apply Hu3. exact Hx. }
      destruct (Nat.eqb ni 0).
      + destruct (delete_old_total limit atomic root (S h') false d1) as [d2 Hd2]. rewrite Hd2. intros Hc.
        rewrite delete_old_seq, Hd2. exact (Hcl d2 Hc).
      + unfold ret at 1. intros Hc. exact (Hcl d1 Hc).
  Qed.
End Par.
