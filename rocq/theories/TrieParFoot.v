(** The cells that an update of a subtree uses: nodes over its own keys, its own slots, and batches below it. *)
From Coq Require Import Permutation.
From Verif Require Import Base TrieModel TrieSpec BaseLemmas TrieMaps TrieHash TrieStore TrieBatch TrieUpdate
  TrieParModel TrieParGeneric TrieParSeq TrieParProofs.

Section Foot.
  Variable H : bytes -> bytes.
  Hypothesis Hlen : forall x, length (H x) = HashLength.
  Variable limit : nat.
  Variable atomic : bool.
  Variable G : bytes -> Prop.
  Hypothesis Hcf : collision_free H G.
  Hypothesis Hnz : forall x, G x -> H x <> zero_hash.
  Notation hash_of := (hash_of H).
  Notation good := (good H G).
  Notation node := (node H).
  Notation desc := (desc H).
  Notation stored := (stored H).
  Notation live_ok := (live_ok H G).
  Notation rootlike := (rootlike H).
  Notation inputs := (inputs H G).
  Notation placed := (placed H).
  Notation post := (post H G).
  Notation update := (update H limit atomic).
  Notation cont := (cont H limit atomic).
  Notation update_p := (update_p H limit atomic).
  Notation cont_p := (cont_p H limit atomic).
  Notation frame := (frame H G).

  Definition mine (h : nat) (ks : list bytes) (x : bytes) : Prop :=
    exists h2 t2, h2 <= h /\ good h2 t2 /\ t2 <> E /\ hash_of h2 t2 = x /\ incl (tkeys t2) ks.
  Definition cells (h : nat) (ks : list bytes) (p loc : path) (i : nat) (c : cell) : Prop :=
    match c with
    | CHash x => mine h ks x
    | CSlot l j => ext p l \/ (h mod 4 <> 0 /\ l = loc /\ (j = i \/ sd (h mod 4) i j))
    end.

  Lemma mine_nz h ks x : mine h ks x -> x <> zero_hash.
  Proof. intros (h2 & t2 & _ & Hg & Hne & <- & _). apply (good_nz H G Hnz); assumption. Qed.
  Lemma mine_tree h h2 ks t : h2 <= h -> good h2 t -> t <> E -> incl (tkeys t) ks -> mine h ks (hash_of h2 t).
  Proof. intros. exists h2, t. auto. Qed.

  Lemma node_cell h h2 ks p loc i t : h2 <= h -> (t = E \/ good h2 t) -> incl (tkeys t) ks ->
    node_ok (cells h ks p loc i) (node h2 t).
  Proof.
    intros Hh Hg Hk Hne. destruct (tree_E_dec t) as [->|Ht]; [exfalso; apply Hne; reflexivity|].
    destruct Hg as [->|Hg]; [congruence|].
    rewrite (to_hash_node H Hlen) by exact Ht. rewrite (node_firstn H Hlen).
    assert (Hm : mine h ks (hash_of h2 t)) by (apply mine_tree; assumption).
    split; [exact Hm|]. split; [eapply mine_nz; exact Hm | reflexivity].
  Qed.
  Lemma rootlike_cell h ks p loc i t root : (t = E \/ good h t) -> rootlike h t root -> incl (tkeys t) ks ->
    node_ok (cells h ks p loc i) root /\ old_ok (cells h ks p loc i) root.
  Proof.
    intros Hg Hr Hk. assert (Hn : node_ok (cells h ks p loc i) root).
    { intros Hne. destruct (tree_E_dec t) as [->|Ht].
      { exfalso. apply Hne. apply (rootlike_nil H Hlen _ _ _ Hr). reflexivity. }
      destruct Hg as [->|Hg]; [congruence|].
      rewrite (rootlike_to_hash H Hlen _ _ _ Hr Ht), (rootlike_firstn H Hlen _ _ _ Hr).
      assert (Hm : mine h ks (hash_of h t)) by (apply mine_tree; auto).
      split; [exact Hm|]. split; [eapply mine_nz; exact Hm | reflexivity]. }
    split; [exact Hn|]. intros Hz. apply Hn. intros ->. apply Hz. apply to_hash_nil.
  Qed.

  Lemma cells_child h' ks kc p x loc ni i : incl kc ks -> ext loc p -> (S h' mod 4 = 0 -> loc = p) ->
    (i = 2 * ni + 1 \/ i = 2 * ni + 2) ->
    forall c, cells h' kc (p ++ [x]) loc i c -> cells (S h') ks p loc ni c.
  Proof.
    intros Hk He Hb Hi [y|l j]; cbn [cells].
    - intros (h2 & t2 & A & B & C & D & F). exists h2, t2. split; [lia|]. do 3 (split; [assumption|]).
      eapply incl_tran; eassumption.
    - intros [Hx|(Hm & -> & Hj)]; [left; eapply ext_child; exact Hx|].
      destruct (mod4_S h') as [[A B]|[A B]].
      + left. rewrite (Hb A). apply ext_refl.
      + right. split; [exact A|]. split; [reflexivity|]. right. rewrite B. cbn [sd].
        destruct Hi as [-> | ->]; destruct Hj as [->|Hj]; auto.
  Qed.

  Lemma cells_disjoint h' kl kr p loc ni : (forall k, In k kl -> In k kr -> False) -> ext loc p ->
    forall c, cells h' kl (p ++ [false]) loc (2 * ni + 1) c -> cells h' kr (p ++ [true]) loc (2 * ni + 2) c -> False.
  Proof.
    intros Hk He [y|l j]; cbn [cells].
    - intros (h2 & t2 & A & B & C & D & F) (h3 & t3 & A' & B' & C' & D' & F'). rewrite <- D' in D.
      destruct (hash_inj H Hlen G Hcf _ _ _ _ B B' C D) as [-> ->].
      destruct (tkeys_nonempty _ _ (proj1 B) C) as (k & Hkk). eapply Hk; eauto.
    - intros [Hx|(Hm & -> & Hj)] [Hx'|(Hm' & Hl & Hj')].
      + eapply ext_sides; eassumption.
      + subst l. exact (not_ext_child loc p false He Hx).
      + exact (not_ext_child loc p true He Hx').
      + destruct Hj as [->|Hj], Hj' as [Hj'|Hj'].
        * lia.
        * apply sd_top_disjoint2 in Hj'. lia.
        * subst j. apply sd_top_disjoint in Hj. lia.
        * eapply sd_disjoint; [exact Hj | exact Hj' | reflexivity].
  Qed.

  Lemma cells_tail h' ks p loc ni : ext loc p -> (S h' mod 4 = 0 -> loc = p) -> (ni = 0 <-> S h' mod 4 = 0) ->
    tail_ok (cells (S h') ks p loc ni) p loc ni h'.
  Proof.
    intros He Hb Hni. split; [|split].
    - intros j Hj. cbn [cells]. destruct (mod4_S h') as [[A B]|[A B]].
      + left. rewrite (Hb A). apply ext_refl.
      + right. split; [exact A|]. split; [reflexivity|]. right. rewrite B. exact Hj.
    - intros Hz j. cbn [cells]. left. rewrite Hb by tauto. apply ext_refl.
    - intros _ x j. cbn [cells]. left. exists [x]. reflexivity.
  Qed.

  Definition foot_spec (h : nat) : Prop := forall root m kvs i s hp p loc,
    inputs h m kvs -> kvs <> [] -> rootlike h (build h m) root -> placed h (build h m) (hp loc) i ->
    stored s h (build h m) -> live_ok s -> (h mod 4 <> 0 -> ext loc p) ->
    foot (update_p h root kvs p loc i) (cells h (keys m ++ keys kvs) p loc i) (mk_st s hp).

  Lemma live_same s s' : live s' = live s -> updated s' = updated s -> live_ok s -> live_ok s'.
  Proof. intros Hl Hu Hk x b Hx. rewrite Hl, Hu in Hx. eapply Hk; exact Hx. Qed.

  Lemma cont_foot h' root m0 kvs0 told b ni ks s hp p loc nd d b' s' :
    foot_spec h' ->
    let h := S h' in let t0 := build h m0 in
    (m0 = [] \/ 2 <= length m0) -> inputs h m0 kvs0 -> kvs0 <> [] ->
    good h told -> rootlike h told root ->
    incl (tkeys told) ks -> incl (keys m0 ++ keys kvs0) ks ->
    length (hp loc) = 31 -> (ni + 2) * 2 ^ S (h' mod 4) <= 32 -> (ni = 0 <-> h mod 4 = 0) ->
    desc (S (h' mod 4)) ni h t0 (hp loc) ->
    stored s h' (ltree t0) -> stored s h' (rtree t0) -> live_ok s ->
    ext loc p -> (h mod 4 = 0 -> loc = p) ->
    cont h' root b ni kvs0 (hp loc) (node h' (ltree t0)) (node h' (rtree t0)) s = (Ok (nd, d, b'), s') ->
    nd = node h (build h (over m0 kvs0)) ->
    foot (cont_p h' root p loc ni kvs0 (node h' (ltree t0)) (node h' (rtree t0))) (cells h ks p loc ni) (mk_st s hp).
  Proof.
    intros IH h t0 Hm0 Hin Hkne Hgo Hr Hkt Hks Hlb Hbd Hni Hds Hsl Hsr Hl Hext Hborder Hrun Hnd.
    set (t' := build h (over m0 kvs0)) in *. set (n := TrieHeight - S h').
    pose proof (child_le _ _ Hbd) as Hc.
    destruct (inputs_good _ _ _ _ _ Hin) as [Hg0 Hg']. fold t' in Hg'.
    pose proof (children h' m0 Hm0) as Ch. cbv zeta in Ch. change (TrieHeight - S h') with n in Ch.
    change (build (S h') m0) with t0 in Ch. destruct Ch as (Cl & Cr & Clf).
    destruct (desc_children _ _ _ _ _ _ Clf Hds) as (Sl & Sr & Dl & Dr).
    assert (Hkt' : incl (tkeys t') ks) by (eapply incl_tran; [apply over_tkeys | exact Hks]).
    destruct (rootlike_cell h ks p loc ni told root (or_intror Hgo) Hr Hkt) as [Hrn Hro].
    pose proof (cells_tail h' ks p loc ni Hext Hborder Hni) as Htail. fold h in Htail.
    assert (Hres : forall q, q = node h t' -> q <> [] -> cells h ks p loc ni (CHash (to_hash q)) /\ to_hash q <> zero_hash).
    { intros q -> Hq. destruct (node_cell h h ks p loc ni t' (le_n h) (or_intror Hg') Hkt' Hq) as (A & B & _). auto. }
    destruct (maybe_remove_ok H Hlen h told root s Hr) as ([] & s1 & Hmr & Hu1 & Hs1 & Hl1 & _).
    assert (Hlive1 : live_ok s1) by (eapply live_same; eassumption).
    assert (Hgen : (2 <= length m0 \/ m0 = [] /\ 2 <= length kvs0) ->
      (let (lkvs, rkvs) := split_keys kvs0 (TrieHeight - S h') in
        _ <- maybe_remove root (S h') ;;
        match lkvs, rkvs with
        | [], _ :: _ =>
            '(r, del, nb) <- update h' (node h' (rtree t0)) kvs0 (hp loc) (2 * ni + 2) ;;
            '(node, d, nb) <- finish H limit atomic (node h' (ltree t0)) r del root nb ni h' ;;
            ret (node, d, if Nat.eqb (S h' mod 4) 0 then b else nb)
        | _ :: _, [] =>
            '(l, del, nb) <- update h' (node h' (ltree t0)) kvs0 (hp loc) (2 * ni + 1) ;;
            '(node, d, nb) <- finish H limit atomic l (node h' (rtree t0)) del root nb ni h' ;;
            ret (node, d, if Nat.eqb (S h' mod 4) 0 then b else nb)
        | _, _ =>
            '(l, ldel, nb) <- update h' (node h' (ltree t0)) lkvs (hp loc) (2 * ni + 1) ;;
            '(r, rdel, nb) <- update h' (node h' (rtree t0)) rkvs nb (2 * ni + 2) ;;
            '(node, d, nb) <- finish H limit atomic l r (ldel || rdel) root nb ni h' ;;
            ret (node, d, if Nat.eqb (S h' mod 4) 0 then b else nb)
        end) s = (Ok (nd, d, b'), s') ->
      foot (let (lkvs, rkvs) := split_keys kvs0 (TrieHeight - S h') in
        maybe_remove_p root (S h')
          match lkvs, rkvs with
          | [], _ :: _ =>
              bindp (update_p h' (node h' (rtree t0)) kvs0 (p ++ [true]) loc (2 * ni + 2)) (fun r =>
              match r with
              | None => Ret None
              | Some (r, del) => finish_p H limit atomic (node h' (ltree t0)) r del root p loc ni h'
              end)
          | _ :: _, [] =>
              bindp (update_p h' (node h' (ltree t0)) kvs0 (p ++ [false]) loc (2 * ni + 1)) (fun l =>
              match l with
              | None => Ret None
              | Some (l, del) => finish_p H limit atomic l (node h' (rtree t0)) del root p loc ni h'
              end)
          | _, _ =>
              Par (update_p h' (node h' (ltree t0)) lkvs (p ++ [false]) loc (2 * ni + 1))
                  (update_p h' (node h' (rtree t0)) rkvs (p ++ [true]) loc (2 * ni + 2))
                  (fun l r =>
                   match l, r with
                   | Some (l, ldel), Some (r, rdel) =>
                       finish_p H limit atomic l r (ldel || rdel) root p loc ni h'
                   | _, _ => Ret None
                   end)
          end) (cells h ks p loc ni) (mk_st s hp)).
    { intros Htwo. pose proof Hin as (Hdom & Hnd0 & Hinc & Hv & Hbv & He & Hst & G1 & G2).
      assert (Hkn : NoDup (keys kvs0)) by (apply increasing_NoDup; exact Hinc).
      assert (Hh' : 1 <= h').
      { destruct Htwo as [Ht|[_ Ht]].
        - pose proof (dom_two h m0) as Hd2. enough (2 <= h) by (unfold h in *; lia). apply Hd2; auto.
          eapply dom_incl; [|exact Hdom]. apply incl_appl, incl_refl.
        - pose proof (dom_two h kvs0) as Hd2. enough (2 <= h) by (unfold h in *; lia). apply Hd2; auto.
          eapply dom_incl; [|exact Hdom]. apply incl_appr, incl_refl. }
      rewrite split_keys_side; [|exact Hinc| |]; cycle 1.
      { eapply share_incl; [|apply Hdom]. apply incl_appr, incl_refl. }
      { eapply lens_incl; [|apply Hdom]. apply incl_appr, incl_refl. }
      fold n.
      set (mL := side n false m0) in *. set (mR := side n true m0) in *.
      set (kL := side n false kvs0). set (kR := side n true kvs0).
      set (lt := build h' (over mL kL)). set (rt := build h' (over mR kR)).
      assert (InL : inputs h' mL kL) by (apply inputs_side; assumption).
      assert (InR : inputs h' mR kR) by (apply inputs_side; assumption).
      destruct (inputs_good _ _ _ _ _ InL) as [GmL GL]. destruct (inputs_good _ _ _ _ _ InR) as [GmR GR].
      fold lt in GL. fold rt in GR.
      assert (KL : incl (tkeys lt) (keys mL ++ keys kL)) by apply over_tkeys.
      assert (KR : incl (tkeys rt) (keys mR ++ keys kR)) by apply over_tkeys.
      assert (KLs : incl (keys mL ++ keys kL) ks) by (apply side_incl_ks; exact Hks).
      assert (KRs : incl (keys mR ++ keys kR) ks) by (apply side_incl_ks; exact Hks).
      assert (KLR : forall k, In k (keys mL ++ keys kL) -> In k (keys mR ++ keys kR) -> False).
      { intros k I1 I2. apply in_app_iff in I1, I2. unfold mL, kL, mR, kR in I1, I2.
        rewrite !in_side_keys in I1, I2. destruct I1 as [[_ I1]|[_ I1]], I2 as [[_ I2]|[_ I2]]; congruence. }
      assert (Hkens : length kL + length kR = length kvs0) by apply side_length.
      unfold bind at 1. change (S h') with h in Hmr |- *. rewrite Hmr.
      intros Hrun'. apply maybe_remove_foot; [exact Hro|]. rewrite Hmr. cbn [snd].
      assert (St1 : stored s1 h' (build h' mL) /\ stored s1 h' (build h' mR)).
      { rewrite Cl, Cr. split; (eapply stored_frame; [|eassumption]); intros x _; apply pend_same; auto;
        rewrite Hu1; reflexivity. }
      destruct St1 as [SL SR].
      rewrite <- Cl in Sl, Dl, Hrun' |- *. rewrite <- Cr in Sr, Dr, Hrun' |- *.
      assert (PL : placed h' (build h' mL) (hp loc) (2 * ni + 1)).
      { intros Hm. destruct (h' mod 4) as [|q] eqn:Hq; [congruence|]. split; [lia|]. split; [exact Hlb|].
        split; [apply child_l; exact Hbd|]. auto. }
      assert (PR : forall nb1, length nb1 = 31 -> slot (2 * ni + 2) nb1 = node h' (build h' mR) ->
         desc (h' mod 4) (2 * ni + 2) h' (build h' mR) nb1 -> placed h' (build h' mR) nb1 (2 * ni + 2)).
      { intros nb1 B1 B2 B3 Hm. destruct (h' mod 4) as [|q] eqn:Hq; [congruence|]. split; [lia|]. split; [exact B1|].
        split; [apply child_r; exact Hbd|]. auto. }
      assert (Hext' : forall x, h' mod 4 <> 0 -> ext loc (p ++ [x])).
      { intros x _. destruct Hext as [q ->]. exists (q ++ [x]). symmetry. apply app_assoc. }
      assert (RL : kL <> [] -> runs (update h' (node h' (build h' mL)) kL (hp loc) (2 * ni + 1)) s1
         (post h' (keys mL ++ keys kL) (length mL) (length (over mL kL)) lt (hp loc) (2 * ni + 1) s1)).
      { intros Hk. apply (update_ok H Hlen limit atomic G Hcf Hnz); auto. left. reflexivity. }
      assert (RR : forall nb1 s2, kR <> [] -> placed h' (build h' mR) nb1 (2 * ni + 2) ->
         stored s2 h' (build h' mR) -> live_ok s2 ->
         runs (update h' (node h' (build h' mR)) kR nb1 (2 * ni + 2)) s2
         (post h' (keys mR ++ keys kR) (length mR) (length (over mR kR)) rt nb1 (2 * ni + 2) s2)).
      { intros nb1 s2 Hk B1 B2 B3. apply (update_ok H Hlen limit atomic G Hcf Hnz); auto. left. reflexivity. }
      assert (FL : kL <> [] -> foot (update_p h' (node h' (build h' mL)) kL (p ++ [false]) loc (2 * ni + 1))
                     (cells h' (keys mL ++ keys kL) (p ++ [false]) loc (2 * ni + 1)) (mk_st s1 hp)).
      { intros Hk. apply IH; auto. left. reflexivity. }
      assert (FR : forall hp1 s2, kR <> [] -> placed h' (build h' mR) (hp1 loc) (2 * ni + 2) ->
         stored s2 h' (build h' mR) -> live_ok s2 ->
         foot (update_p h' (node h' (build h' mR)) kR (p ++ [true]) loc (2 * ni + 2))
                     (cells h' (keys mR ++ keys kR) (p ++ [true]) loc (2 * ni + 2)) (mk_st s2 hp1)).
      { intros hp1 s2 Hk B1 B2 B3. apply IH; auto. left. reflexivity. }
      assert (CL : forall c, cells h' (keys mL ++ keys kL) (p ++ [false]) loc (2 * ni + 1) c -> cells h ks p loc ni c).
      { apply cells_child; auto. }
      assert (CR : forall c, cells h' (keys mR ++ keys kR) (p ++ [true]) loc (2 * ni + 2) c -> cells h ks p loc ni c).
      { apply cells_child; auto. }
      assert (CD : forall c, cells h' (keys mL ++ keys kL) (p ++ [false]) loc (2 * ni + 1) c ->
                             cells h' (keys mR ++ keys kR) (p ++ [true]) loc (2 * ni + 2) c -> False).
      { apply cells_disjoint; auto. }
      assert (NL : node_ok (cells h ks p loc ni) (node h' lt)).
      { apply node_cell; [unfold h; lia | auto | eapply incl_tran; eassumption]. }
      assert (NR : node_ok (cells h ks p loc ni) (node h' rt)).
      { apply node_cell; [unfold h; lia | auto | eapply incl_tran; eassumption]. }
      assert (AL : kL = [] -> kR = kvs0) by apply side_all.
      assert (AR : kR = [] -> kL = kvs0) by apply side_all'.
      clearbody kL kR.
      destruct kL as [|kvl kL']; destruct kR as [|kvr kR'].
      - exfalso. simpl in Hkens. destruct kvs0; [congruence|discriminate].
      - (* right only *)
        specialize (AL eq_refl). rewrite <- AL in Hrun' |- *.
        assert (Elt : build h' mL = lt) by (unfold lt; rewrite over_nil_r; reflexivity).
        assert (PR0 : placed h' (build h' mR) (hp loc) (2 * ni + 2)) by (apply PR; auto).
        destruct (RR (hp loc) s1 ltac:(discriminate) PR0 SR Hlive1)
          as ([[r del] nb1] & s2 & U & -> & _).
        unfold bind at 1 in Hrun'. rewrite U in Hrun'.
        destruct (seq_child H limit atomic _ _ _ p true loc _ _ _ _ _ _ _ (update_seq H limit atomic h') Hext U)
          as (hp2 & B1 & B2 & B3). rewrite <- B2 in Hrun'.
        destruct (finish_out H limit atomic _ _ _ _ _ p loc ni h' s2 hp2 _ _ _ _ Hext Hrun') as (hp3 & _ & _ & _ & Hf).
        apply foot_bind; [eapply foot_incl; [exact CR|]; apply FR; auto; discriminate|].
        rewrite B1. cbn [fst snd]. apply Hf; auto. rewrite Elt. exact NL.
      - (* left only *)
        specialize (AR eq_refl). rewrite <- AR in Hrun' |- *.
        assert (Ert : build h' mR = rt) by (unfold rt; rewrite over_nil_r; reflexivity).
        destruct (RL ltac:(discriminate)) as ([[l del] nb1] & s2 & U & -> & _).
        unfold bind at 1 in Hrun'. rewrite U in Hrun'.
        destruct (seq_child H limit atomic _ _ _ p false loc _ _ _ _ _ _ _ (update_seq H limit atomic h') Hext U)
          as (hp2 & B1 & B2 & B3). rewrite <- B2 in Hrun'.
        destruct (finish_out H limit atomic _ _ _ _ _ p loc ni h' s2 hp2 _ _ _ _ Hext Hrun') as (hp3 & _ & _ & _ & Hf).
        apply foot_bind; [eapply foot_incl; [exact CL|]; apply FL; discriminate|].
        rewrite B1. cbn [fst snd]. apply Hf; auto. rewrite Ert. exact NR.
      - (* both *)
        destruct (RL ltac:(discriminate)) as ([[l ldel] nb1] & s2 & U & -> & _ & B3 & B4 & B5 & B6 & B7 & B8 & B9).
        unfold bind at 1 in Hrun'. rewrite U in Hrun'.
        destruct (seq_child H limit atomic _ _ _ p false loc _ _ _ _ _ _ _ (update_seq H limit atomic h') Hext U)
          as (hp2 & Q1 & Q2 & Q3). rewrite <- Q2 in *.
        assert (PR2 : placed h' (build h' mR) (hp2 loc) (2 * ni + 2)).
        { apply PR.
          - congruence.
          - rewrite B5; [exact Sr|]. intros Hj. apply sd_top_disjoint in Hj. lia.
          - eapply desc_frame; [|exact Dr]. intros j Hj. apply B5. intros Hj2.
            eapply sd_disjoint; [exact Hj2 | exact Hj | reflexivity]. }
        assert (SR2 : stored s2 h' (build h' mR)).
        { eapply (frame_stored H Hlen G Hcf Hnz); [exact B8 | exact GmR| |exact SR].
          intros k I1 I2. apply build_tkeys in I2. eapply KLR; [exact I1|]. apply in_app_iff. auto. }
        destruct (RR (hp2 loc) s2 ltac:(discriminate) PR2 SR2 B7) as ([[r rdel] nb2] & s3 & U2 & -> & _).
        unfold bind at 1 in Hrun'. rewrite U2 in Hrun'.
        destruct (seq_child H limit atomic _ _ _ p true loc _ _ _ _ _ _ _ (update_seq H limit atomic h') Hext U2)
          as (hp4 & R1 & R2 & R3). rewrite <- R2 in Hrun'.
        destruct (finish_out H limit atomic _ _ _ _ _ p loc ni h' s3 hp4 _ _ _ _ Hext Hrun') as (hp5 & _ & _ & _ & Hf).
        cbn [foot]. rewrite Q1. cbn [fst snd]. rewrite R1. cbn [fst snd]. split; [|apply Hf; auto].
        exists (cells h' (keys mL ++ keys (kvl :: kL')) (p ++ [false]) loc (2 * ni + 1)),
               (cells h' (keys mR ++ keys (kvr :: kR')) (p ++ [true]) loc (2 * ni + 2)).
        split; [exact CL|]. split; [exact CR|]. split; [exact CD|].
        split; [apply FL; discriminate | apply FR; auto; discriminate]. }
    assert (Hleaf : forall k v, kvs0 = [(k, v)] ->
      (if beqb DefaultLeaf v then ret ([], true, if Nat.eqb (S h' mod 4) 0 then b else (hp loc))
       else _ <- maybe_remove root (S h') ;;
            '(node, nb) <- leaf_hash H limit atomic k v root (hp loc) ni (S h') ;;
            ret (node, false, if Nat.eqb (S h' mod 4) 0 then b else nb)) s = (Ok (nd, d, b'), s') ->
      foot (if beqb DefaultLeaf v then Ret (Some ([], true))
        else
          maybe_remove_p root (S h')
            (leaf_hash_p H limit atomic k v root loc ni (S h') (fun node => Ret (Some (node, false)))))
        (cells h ks p loc ni) (mk_st s hp)).
    { intros k v Hk Hrun'. destruct (beqb DefaultLeaf v); [exact I|].
      unfold bind at 1 in Hrun'. change (S h') with h in Hmr, Hrun' |- *. rewrite Hmr in Hrun'.
      apply maybe_remove_foot; [exact Hro|]. rewrite Hmr. cbn [snd]. unfold bind at 1 in Hrun'.
      destruct (leaf_hash H limit atomic k v root (hp loc) ni h s1) as [[[n1 b1]| |] d2] eqn:Hlh; try discriminate.
      cbv [ret] in Hrun'. injection Hrun' as <- _ _ _.
      assert (Hne : n1 <> []).
      { intros ->. assert (Ht : t' = E) by (symmetry in Hnd; apply (node_nil H) in Hnd; exact Hnd).
        unfold leaf_hash in Hlh. cbv zeta in Hlh. cbv [bind ret] in Hlh.
        assert (Hx : forall z, z ++ [x01] <> ([] : bytes)) by (intros z Hz; apply app_eq_nil in Hz as [_ Hz]; discriminate).
        destruct (Nat.eqb (h mod 4) 0).
        - destruct (store_node _ _ _ _ _ _ _) as [[u| |] d3]; try discriminate. injection Hlh as Hm _ _. exact (Hx _ Hm).
        - injection Hlh as Hm _ _. exact (Hx _ Hm). }
      destruct (Hres n1 Hnd Hne) as [N1 N2]. destruct Htail as (T1 & T2 & T3).
      destruct (leaf_hash_seq H limit atomic _ _ _ _ _ _ _ _ _ _ _ Hlh) as (hp' & _ & _ & Hf).
      apply Hf; [apply T1; cbn [sd]; auto.. | | exact I].
      intros Hm. split; [apply T2; right; exact Hm|]. auto. }
    unfold TrieUpdate.cont in Hrun. cbv zeta in Hrun. unfold TrieParProofs.cont_p.
    destruct Hm0 as [Hm|Hm].
    - assert (Ht0 : t0 = E) by (unfold t0; rewrite Hm; reflexivity). rewrite Ht0 in *. cbn [ltree rtree TrieStore.node] in *.
      destruct kvs0 as [|[k v] [|kv kvs0]]; [congruence | apply Hleaf; auto |].
      apply Hgen; [|exact Hrun]. right. split; [exact Hm | simpl; lia].
    - assert (Hnn : ltree t0 <> E \/ rtree t0 <> E).
      { unfold t0, h in *. rewrite build_S in * by exact Hm. cbn [ltree rtree]. apply Hg0. }
      specialize (Hgen (or_introl Hm)).
      destruct (node h' (ltree t0)) eqn:Nl; [|destruct (node h' (rtree t0)); exact (Hgen Hrun)].
      destruct (node h' (rtree t0)) eqn:Nr; [|exact (Hgen Hrun)].
      apply (node_nil H) in Nl, Nr. exfalso. tauto.
  Qed.

  Theorem update_foot h : foot_spec h.
  Proof.
    induction h as [|h' IH]; intros root m kvs i s hp p loc Hin Hkne Hr Hpl Hst Hl Hext.
    { destruct Hin as (((Hh & _) & _) & _). lia. }
    set (h := S h') in *. destruct kvs as [|kv kvs']; [congruence|].
    destruct (update_ok H Hlen limit atomic G Hcf Hnz h root m (kv :: kvs') (hp loc) i s Hin Hkne Hr Hpl Hst Hl)
      as ([[nd dl] b'] & s' & Hrun & Hnd & _).
    change (update h root (kv :: kvs') (hp loc) i) with (update (S h') root (kv :: kvs') (hp loc) i) in Hrun.
    rewrite update_S in Hrun. unfold h at 1. rewrite update_p_S.
    set (kvs := kv :: kvs') in *. fold h in Hrun |- *.
    destruct (inputs_good _ _ _ _ _ Hin) as [Hg Hg'].
    assert (Hkt : incl (tkeys (build h m)) (keys m ++ keys kvs)).
    { intros k Hk. apply build_tkeys in Hk. apply in_app_iff. auto. }
    assert (Hlo : runs (load_children limit root h i (hp loc)) s (fun r s' =>
      let '(nb, ni, l, r, sc) := r in
      length nb = 31 /\ (ni + 2) * 2 ^ S (h' mod 4) <= 32 /\ (ni = 0 <-> h mod 4 = 0) /\
      (h mod 4 <> 0 -> nb = hp loc /\ ni = i) /\ desc (S (h' mod 4)) ni h (build h m) nb /\
      l = slot (2 * ni + 1) nb /\ r = slot (2 * ni + 2) nb /\ sc = is_leaf (build h m) /\
      live_ok s' /\ updated s' = updated s /\ removed s' = removed s /\ store s' = store s)).
    { apply (load_children_ok H Hlen limit G Hcf h' (build h m) root i (hp loc) s); auto; intros Hm; apply Hpl; exact Hm. }
    destruct Hlo as ([[[[nb ni] l] r] sc] & s1 & Hlc & Hlb & Hbd & Hni & Hsame & Hds & -> & -> & -> & Hl1 & Hu1 & Hrm1 & Hs1).
    unfold bind at 1 in Hrun. rewrite Hlc in Hrun.
    destruct (load_children_seq limit root h p loc i s hp _ _ _ _ _ _ Hlc) as (hp1 & Hu & _ & Hf).
    cbv zeta in Hu, Hf. set (loc' := if Nat.eqb (h mod 4) 0 then p else loc) in *.
    assert (Hext' : ext loc' p).
    { unfold loc'. destruct (Nat.eqb_spec (h mod 4) 0) as [Hm|Hm]; [apply ext_refl | apply Hext; exact Hm]. }
    assert (Hborder : h mod 4 = 0 -> loc' = p).
    { intros Hm. unfold loc'. rewrite Hm. reflexivity. }
    assert (Hst1 : stored s1 h (build h m)).
    { eapply stored_frame; [|exact Hst]. intros x _. apply pend_same; [exact Hs1 | rewrite Hu1; reflexivity]. }
    destruct (rootlike_cell h (keys m ++ keys kvs) p loc i (build h m) root (or_intror Hg) Hr Hkt) as [Hrn Hro].
    assert (Hsub : forall c, cells h (keys m ++ keys kvs) p loc' ni c -> cells h (keys m ++ keys kvs) p loc i c).
    { intros [x|x j]; cbn [cells]; [auto|]. intros [Hx|(Hm & -> & Hj)]; [auto|]. right. split; [exact Hm|].
      unfold loc'. destruct (Nat.eqb_spec (h mod 4) 0); [contradiction|]. destruct (Hsame Hm) as [_ <-]. auto. }
    assert (Hslots : h mod 4 = 0 -> slots_ok (cells h (keys m ++ keys kvs) p loc i) p).
    { intros _ j. left. apply ext_refl. }
    assert (Hmod : h mod 4 <> 0 -> h mod 4 = S (h' mod 4)).
    { intros Hm. destruct (mod4_S h') as [[A B]|[A B]]; [unfold h in *; lia | exact B]. }
    apply Hf; [intros Hm; split; [exact Hrn | apply Hslots; exact Hm] | |].
    { intros Hm. cbn [cells]. rewrite (Hmod Hm). cbn [sd]. split; [|split]; (right; split; [lia | split; [reflexivity | auto]]). }
    rewrite <- (proj1 Hu) in *. clear Hf.
    destruct (is_leaf (build h m)) eqn:Hlf.
    - destruct (build h m) as [|sk sv|? ?] eqn:Hbm; try discriminate.
      pose proof (build_leaf_inv _ _ _ _ Hbm) as Hm.
      pose proof Hds as ((Hsk & Hsv) & _). rewrite Hsk, Hsv in Hrun |- *.
      destruct (wf_leaf_k _ _ _ _ _ Hg) as [Lk Lv]. rewrite !firstn_app_exact in Hrun |- * by assumption.
      pose proof Hin as (Hdom & Hnd0 & Hinc & Hv & Hbv & He & Hns & G1 & G2).
      rewrite Hm in He, Hns.
      destruct (maybe_add_ok sk sv kvs) as (M1 & M2 & M3 & M4); auto.
      { eapply not_straddled_side; [|exact Hns]. rewrite Hm in Hdom. exact Hdom. }
      { intros Hq. rewrite Hq in Lv. discriminate. }
      cbv zeta in Hrun |- *. set (kvs2 := maybe_add_shortcut kvs sk sv) in *.
      assert (M3' : forall k v, In (k, v) kvs2 -> v <> DefaultLeaf) by (intros k v Hi; apply (M3 k v Hi)).
      rewrite <- Hm in M4.
      assert (Ht' : build h (over m kvs) = build h kvs2) by (symmetry; apply build_perm; exact M4).
      unfold bind at 1 in Hrun.
      set (hp3 := heap_set (heap_set hp1 loc' (set_nth (2 * ni + 1) [] (hp1 loc'))) loc'
                    (set_nth (2 * ni + 2) [] (heap_set hp1 loc' (set_nth (2 * ni + 1) [] (hp1 loc')) loc'))).
      assert (Hu3 : upd_at hp1 loc' (set_nth (2 * ni + 2) [] (set_nth (2 * ni + 1) [] (hp1 loc'))) hp3).
      { apply upd_slot, upd_slot, upd_refl. }
      pose proof (child_le _ _ Hbd) as Hc.
      assert (Hd2 : desc (S (h' mod 4)) ni h E (hp3 loc')).
      { rewrite (proj1 Hu3). change (set_nth (2 * ni + 2) [] (set_nth (2 * ni + 1) [] (hp1 loc'))) with (set2 ni [] [] (hp1 loc')).
        eapply desc_clear; eauto. }
      assert (Hlb3 : length (hp3 loc') = 31) by (rewrite (proj1 Hu3), !set_nth_length; exact Hlb).
      pose proof (cells_tail h' (keys m ++ keys kvs) p loc' ni Hext' Hborder Hni) as (T1 & _ & _). fold h in T1.
      assert (Hclear : forall s2, live_ok s2 ->
         match kvs2 with
         | [] => ret ([], true, if Nat.eqb (h mod 4) 0 then hp loc
                                else set_nth (2 * ni + 2) [] (set_nth (2 * ni + 1) [] (hp1 loc')))
         | _ :: _ => cont h' root (hp loc) ni kvs2 (set_nth (2 * ni + 2) [] (set_nth (2 * ni + 1) [] (hp1 loc'))) [] []
         end s2 = (Ok (nd, dl, b'), s') ->
         foot (doing (ASet loc' (2 * ni + 1) [])
              (doing (ASet loc' (2 * ni + 2) [])
              match kvs2 with
              | [] => Ret (Some ([], true))
              | _ :: _ => cont_p h' root p loc' ni kvs2 [] []
              end)) (cells h (keys m ++ keys kvs) p loc i) (mk_st s2 hp1)).
      { intros s2 Hl2 Hc2. apply (foot_incl _ (cells h (keys m ++ keys kvs) p loc' ni)); [exact Hsub|].
        apply aset_foot; [apply T1; cbn [sd]; auto|]. apply aset_foot; [apply T1; cbn [sd]; auto|].
        change (heap_set (heap_set hp1 loc' (set_nth (2 * ni + 1) [] (hp1 loc'))) loc'
                    (set_nth (2 * ni + 2) [] (heap_set hp1 loc' (set_nth (2 * ni + 1) [] (hp1 loc')) loc'))) with hp3.
        destruct kvs2 as [|kv2 kvs2'] eqn:E2; [exact I|]. rewrite <- E2 in *.
        assert (Hov : over [] kvs2 = kvs2) by (apply over_nil_nd; exact M3').
        assert (Hki : incl (keys kvs2) (keys m ++ keys kvs)) by (rewrite Hm; exact M2).
        assert (Hin2 : inputs h [] kvs2).
        { split; [eapply dom_incl; [exact Hki | exact Hdom]|]. split; [constructor|]. split; [exact M1|].
          split; [intros ? ? []|]. split.
          { intros k v Hi. left. assert (Hi2 : In (k, v) (over m kvs)) by (eapply Permutation_in; eauto).
            exact (vals_ok_over m kvs Hv Hbv k v Hi2). }
          split; [intros k v Hi; split; [intros _; discriminate | intros Hq; exfalso; eapply M3'; eauto]|].
          split; [intros (n & d & k1 & k2 & _ & [] & _)|].
          split; [split; [destruct h'; intros ? [] | intros ? ? ? []]|].
          rewrite Hov. eapply Gok_perm; [apply Permutation_sym; exact M4 | exact G2]. }
        rewrite <- (proj1 Hu3) in Hc2.
        apply (cont_foot h' root [] kvs2 (L sk sv) (hp loc) ni (keys m ++ keys kvs) s2 hp3 p loc' nd dl b' s' IH); auto.
        - rewrite E2. discriminate.
        - exact I.
        - exact I.
        - rewrite Hov. fold h. rewrite <- Ht'. exact Hnd. }
      destruct (Nat.eqb ni 0).
      + destruct (delete_old_ok H limit atomic G root h false s1) as ([] & s2 & Hd & _ & _ & _ & Hl2).
        rewrite Hd in Hrun. apply delete_old_foot; [exact Hro|]. rewrite Hd. cbn [snd]. apply Hclear; [|exact Hrun].
        apply Hl2. exact Hl1.
      + unfold ret at 1 in Hrun. apply Hclear; assumption.
    - assert (Hm : m = [] \/ 2 <= length m).
      { destruct m as [|[k v] [|kv2 m2]]; [auto | discriminate | right; simpl; lia]. }
      destruct (desc_children _ _ _ _ _ _ Hlf Hds) as (Sl & Sr & _ & _). rewrite Sl, Sr in Hrun |- *.
      assert (Hsub2 : stored s1 h' (ltree (build h m)) /\ stored s1 h' (rtree (build h m))).
      { destruct (build h m) as [|k v|tl tr]; [split; exact I | discriminate|]. split; apply Hst1. }
      destruct Hsub2 as [HsL HsR].
      apply (foot_incl _ (cells h (keys m ++ keys kvs) p loc' ni)); [exact Hsub|].
      apply (cont_foot h' root m kvs (build h m) (hp loc) ni (keys m ++ keys kvs) s1 hp1 p loc' nd dl b' s' IH); auto.
      apply incl_refl.
  Qed.
End Foot.
