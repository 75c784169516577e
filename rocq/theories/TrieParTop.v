(** Every schedule of the parallel update ends as the sequential update does. *)
From Coq Require Import Permutation.
From Verif Require Import Base TrieModel TrieSpec BaseLemmas TrieMaps TrieHash TrieStore TrieBatch TrieUpdate TrieCodec TrieRead
  TrieSound TrieHistory TrieTop TrieParModel TrieParSpec TrieParGeneric TrieParSeq TrieParProofs TrieParFoot.

(** ** The sequential run is a schedule; the zero cell *)
Lemma steps_trans p s p1 s1 p2 s2 : steps p s p1 s1 -> steps p1 s1 p2 s2 -> steps p s p2 s2.
Proof. induction 1 as [|? ? ? ? ? ? Hs Hss IH]; [auto|]. intros Ht. econstructor; [exact Hs|]. apply IH. exact Ht. Qed.
Lemma steps_left p s p' s' q k : steps p s p' s' -> steps (Par p q k) s (Par p' q k) s'.
Proof. induction 1 as [|? ? ? ? ? ? Hs Hss IH]; [constructor|]. econstructor; [apply step_left; exact Hs | exact IH]. Qed.
Lemma steps_right p q s q' s' k : steps q s q' s' -> steps (Par p q k) s (Par p q' k) s'.
Proof. induction 1 as [|? ? ? ? ? ? Hs Hss IH]; [constructor|]. econstructor; [apply step_right; exact Hs | exact IH]. Qed.
Lemma seqp_steps p : forall s, steps p s (Ret (fst (seqp p s))) (snd (seqp p s)).
Proof.
  induction p as [r|a k IH|p IHp q IHq k IHk]; intros s; cbn [seqp].
  - constructor.
  - econstructor; [apply step_do | apply IH].
  - eapply steps_trans; [apply steps_left, IHp|]. eapply steps_trans; [apply steps_right, IHq|].
    econstructor; [apply step_join | apply IHk].
Qed.

(** Right halves first. *)
Fixpoint rseqp (p : prog) (s : st) : mresult * st :=
  match p with
  | Ret r => (r, s)
  | Do a k => rseqp (k (fst (act a s))) (snd (act a s))
  | Par p q k =>
      rseqp (k (fst (rseqp p (snd (rseqp q s)))) (fst (rseqp q s))) (snd (rseqp p (snd (rseqp q s))))
  end.
Lemma rseqp_steps p : forall s, steps p s (Ret (fst (rseqp p s))) (snd (rseqp p s)).
Proof.
  induction p as [r|a k IH|p IHp q IHq k IHk]; intros s; cbn [rseqp].
  - constructor.
  - econstructor; [apply step_do | apply IH].
  - eapply steps_trans; [apply steps_right, IHq|]. eapply steps_trans; [apply steps_left, IHp|].
    econstructor; [apply step_join | apply IHk].
Qed.

(** Accesses that do not touch the zero cell keep it, up to deletion. *)
Definition zero_kept (s t : cdb) : Prop :=
  (live t zero_hash = live s zero_hash \/ live t zero_hash = None) /\
  (updated t zero_hash = updated s zero_hash \/ updated t zero_hash = None) /\
  removed t zero_hash = removed s zero_hash /\ store t zero_hash = store s zero_hash.
Lemma zero_refl s : zero_kept s s.
Proof. split; [|split]; auto. Qed.
Lemma zero_trans s t u : zero_kept s t -> zero_kept t u -> zero_kept s u.
Proof.
  intros (A & B & C & D) (A' & B' & C' & D'). split; [|split; [|split; congruence]].
  - destruct A' as [->|]; auto.
  - destruct B' as [->|]; auto.
Qed.
Lemma zero_act a s : (forall c, touch a c -> c <> Z) -> zero_kept (db s) (db (snd (act a s))).
Proof.
  intros Ht.
  assert (Hx : forall x, touch a (CHash x) -> beqb zero_hash x = false).
  { intros x Hx. apply Ht in Hx. destruct (beqb_spec zero_hash x) as [<-|]; [|reflexivity]. exfalso. apply Hx. reflexivity. }
  destruct a as [l i|l i v|l b|x l|x l|x l|x l|x l|x|x|x]; cbn [act]; try apply zero_refl.
  - destruct (live (db s) x); apply zero_refl.
  - destruct (updated (db s) x); apply zero_refl.
  - destruct (store (db s) x) as [[|? ?]|]; apply zero_refl.
  - unfold zero_kept. cbn [snd db live updated removed store]. unfold map_set. rewrite Hx by (cbn; auto). auto.
  - unfold zero_kept. cbn [snd db live updated removed store]. unfold map_set. rewrite Hx by (cbn; auto). auto.
  - unfold zero_kept. cbn [snd db live updated removed store]. unfold map_set. destruct (beqb zero_hash x); auto.
  - unfold zero_kept. cbn [snd db live updated removed store]. unfold map_set. destruct (beqb zero_hash x); auto.
  - unfold zero_kept. cbn [snd db live updated removed store]. unfold map_set. rewrite Hx by (cbn; auto). auto.
Qed.
Lemma zero_steps p s p' s' : steps p s p' s' -> forall P, foot p P s -> zero_kept (db s) (db s').
Proof.
  induction 1 as [p s|p s p1 s1 p2 s2 Hs Hss IH]; intros P Hf; [apply zero_refl|].
  destruct (step_foot _ _ _ _ _ Hf Hs) as (F1 & _ & _).
  eapply zero_trans; [|eapply IH; exact F1].
  destruct (step_local _ _ _ _ Hs P Hf) as ([a|] & -> & Ht & _); [|apply zero_refl].
  apply zero_act. intros c Hc. apply (Ht c Hc).
Qed.
(** Nothing is kept under the all-zero hash (the hash of no string: the placeholder of an empty tree). *)
Definition no_zero (s : cdb) : Prop := live s zero_hash = None /\ updated s zero_hash = None /\ store s zero_hash = None.
Lemma zero_same s t u : no_zero s -> zero_kept s t -> zero_kept s u -> same_at zero_hash t u.
Proof.
  intros (Hl & Hu & _) (A & B & C & D) (A' & B' & C' & D'). rewrite Hl in A, A'. rewrite Hu in B, B'.
  repeat split; intuition congruence.
Qed.
Lemma no_zero_kept s t : no_zero s -> zero_kept s t -> no_zero t.
Proof.
  intros (Hl & Hu & Ho) (A & B & _ & D). rewrite Hl in A. rewrite Hu in B. repeat split; intuition congruence.
Qed.

(** Reads, commits and resets. *)
Definition keeps {A} (m : M A) : Prop := forall s, no_zero s -> no_zero (snd (m s)).
Lemma keeps_ret {A} (a : A) : keeps (ret a).
Proof. intros s Hs. exact Hs. Qed.
Lemma keeps_bind {A B} (m : M A) (f : A -> M B) : keeps m -> (forall a, keeps (f a)) -> keeps (bind m f).
Proof.
  intros Hm Hf s Hs. unfold bind. specialize (Hm s Hs). destruct (m s) as [[a| |] s1]; [|exact Hm|exact Hm].
  apply Hf. exact Hm.
Qed.
Lemma keeps_load limit root h : keeps (load_batch limit root h).
Proof.
  intros s Hs. unfold load_batch. destruct (live s (to_hash root)); [exact Hs|].
  destruct (updated s (to_hash root)); [exact Hs|].
  destruct (store s (firstn HashLength root)) as [[|x v]|] eqn:Hr; try exact Hs.
  destruct (_ && _); [|exact Hs]. cbn [snd]. destruct Hs as (Hl & Hu & Ho). repeat split; cbn [live updated store]; auto.
  unfold map_set. destruct (beqb_spec zero_hash (firstn HashLength root)) as [Hq|]; [|exact Hl].
  rewrite <- Hq in Hr. congruence.
Qed.
Lemma keeps_children limit root h i b : keeps (load_children limit root h i b).
Proof.
  unfold load_children. destruct (Nat.eqb (h mod 4) 0); [|apply keeps_ret].
  apply keeps_bind; [|intros; apply keeps_ret]. destruct root; [apply keeps_ret | apply keeps_load].
Qed.
Lemma keeps_get limit h : forall root key b i, keeps (get limit h root key b i).
Proof.
  induction h as [|h IH]; intros root key b i; cbn [get]; destruct root as [|x root]; try apply keeps_ret;
    (apply keeps_bind; [apply keeps_children|]); intros [[[[nb ni] l] r] [|]]; try apply keeps_ret.
  - intros s Hs. exact Hs.
  - destruct (bit _ _); apply IH.
Qed.
Lemma keeps_proof limit h : forall root key b i, keeps (merkle_proof limit h root key b i).
Proof.
  induction h as [|h IH]; intros root key b i; cbn [merkle_proof]; destruct root as [|x root]; try apply keeps_ret;
    (apply keeps_bind; [apply keeps_children|]); intros [[[[nb ni] l] r] [|]]; cbv zeta; 
    try (destruct (beqb _ key); apply keeps_ret).
  destruct (bit _ _); (apply keeps_bind; [apply IH|]); intros [[[ap inc] pk] pv]; apply keeps_ret.
Qed.
Lemma keeps_other H limit o root : (forall atomic b, o <> OpUpdate atomic b) -> keeps (run_op H limit o root).
Proof.
  intros Hno. destruct o as [atomic b| | | |key|key]; cbn [run_op].
  - exfalso. eapply Hno. reflexivity.
  - apply keeps_bind; [|intros; apply keeps_ret]. intros s (Hl & Hu & Ho). unfold commit. cbn [snd].
    repeat split; cbn [live updated store]; auto. rewrite Hu, Ho. destruct (removed s zero_hash); reflexivity.
  - apply keeps_bind; [|intros; apply keeps_ret]. intros s (Hl & Hu & Ho). repeat split; assumption.
  - apply keeps_bind; [|intros; apply keeps_ret]. intros s (Hl & Hu & Ho). repeat split; assumption.
  - apply keeps_bind; [apply keeps_get|intros; apply keeps_ret].
  - apply keeps_bind; [apply keeps_proof|intros; apply keeps_ret].
Qed.

Section ParTop.
  Variable H : bytes -> bytes.
  Hypothesis Hlen : forall x, length (H x) = HashLength.
  Variable limit : nat.
  Variable G : bytes -> Prop.
  Hypothesis Hcf : collision_free H G.
  Hypothesis Hnz : forall x, G x -> H x <> zero_hash.

  Notation represents := (represents H G).
  Notation inv := (inv H G).
  Notation covers := (covers H G).

  (** At the root of a batch the batch of the caller is not looked at. *)
  Definition strip {A B C} (r : res (A * B * C) * cdb) : res (A * B) * cdb :=
    match r with
    | (Ok (a, b, _), s) => (Ok (a, b), s)
    | (Err, s) => (Err, s)
    | (Panic, s) => (Panic, s)
    end.
  Ltac both :=
    match goal with
    | |- ?x = ?x => reflexivity
    | |- context [match ?x with (_, _) => _ end] =>
        lazymatch x with context [match _ with _ => _ end] => fail | _ => destruct x as [[?| |] ?] end
    | |- context [match ?x with _ => _ end] =>
        lazymatch x with context [match _ with _ => _ end] => fail | _ => destruct x end
    end.
  Lemma cont_b atomic h' root b1 b2 ni kvs nb l r s : S h' mod 4 = 0 ->
    strip (cont H limit atomic h' root b1 ni kvs nb l r s) = strip (cont H limit atomic h' root b2 ni kvs nb l r s).
  Proof.
    intros Hm. unfold cont. rewrite Hm. cbn [Nat.eqb]. unfold bind, ret.
    repeat both; reflexivity.
  Qed.
  Lemma update_b atomic h' root kv kvs b1 b2 i s : S h' mod 4 = 0 ->
    strip (update H limit atomic (S h') root (kv :: kvs) b1 i s) = strip (update H limit atomic (S h') root (kv :: kvs) b2 i s).
  Proof.
    intros Hm. rewrite !update_S. unfold load_children. rewrite Hm. cbn [Nat.eqb]. unfold bind at 1 4.
    unfold bind at 1 3.
    match goal with |- context [match ?x with (_, _) => _ end] => set (X := x) end. clearbody X.
    destruct X as [[[[[[nb ni] l] r] [|]]| |] s1]; [|apply cont_b; exact Hm|reflexivity|reflexivity]. cbv zeta. unfold bind.
    match goal with |- context [match ?x with (_, _) => _ end] => set (X := x) end. clearbody X.
    destruct X as [[?| |] s2]; [|reflexivity|reflexivity].
    destruct (maybe_add_shortcut _ _ _) as [|kv1 kvs1]; [reflexivity|]. apply cont_b. exact Hm.
  Qed.
  Lemma update_top atomic root kvs b1 b2 nd d b1' s s' :
    kvs <> [] -> update H limit atomic TrieHeight root kvs b1 0 s = (Ok (nd, d, b1'), s') ->
    exists b2', update H limit atomic TrieHeight root kvs b2 0 s = (Ok (nd, d, b2'), s').
  Proof.
    destruct kvs as [|kv kvs]; [congruence|]. intros _ Hu.
    pose proof (update_b atomic 255 root kv kvs b1 b2 0 s eq_refl) as Hb.
    change (S 255) with TrieHeight in Hb. rewrite Hu in Hb. cbn [strip] in Hb.
    destruct (update H limit atomic TrieHeight root (kv :: kvs) b2 0 s) as [[[[nd2 d2] b2']| |] s2]; cbn [strip] in Hb; try discriminate.
    inversion Hb; subst. eauto.
  Qed.

  Lemma top_foot n m s b m' atomic hp : inv n m s -> is_batch b -> b <> [] -> effective m b -> ~ straddled m b ->
    sep (keys m ++ keys b) -> is_map m' -> overridden m b m' -> covers m' ->
    exists nd d sq hpq,
      trie_update H limit atomic (root_of H m) b s = (Ok (root_of H m'), sq) /\
      firstn HashLength nd = root_of H m' /\ inv (S n) m' sq /\
      seqp (trie_update_p H limit atomic (root_of H m) b) (mk_st s hp) = (Some (nd, d), mk_st sq hpq) /\
      exists P, foot (trie_update_p H limit atomic (root_of H m) b) P (mk_st s hp).
  Proof.
    intros Hinv Hb Hne He Hst Hsep Hm' Ho Hc'.
    pose proof (inputs_top H G n m s b m' Hinv Hb He Hst Hsep Hm' Ho Hc') as Hin.
    destruct (update_inv H Hlen limit G Hcf Hnz n m s b m' atomic Hinv Hb He Hst Hsep Hm' Ho Hc')
      as (r & sq & Hrun & -> & Hinv' & _).
    destruct Hinv as ((Hm & Hs & Hc & Hsto & Hlv) & _).
    assert (Hgo : trie_update H limit atomic (root_of H m) b =
                  ('(node, _, _) <- update H limit atomic TrieHeight (root_of H m) b [] 0 ;;
                   ret (firstn HashLength node))).
    { destruct b; [congruence|reflexivity]. }
    pose proof Hrun as Hrun'. rewrite Hgo in Hrun'. unfold bind in Hrun'.
    destruct (update H limit atomic TrieHeight (root_of H m) b [] 0 s) as [[[[nd d] b']| |] s1] eqn:Hup; try discriminate.
    unfold ret in Hrun'. inversion Hrun' as [[Hnd Hs1]]. subst s1.
    destruct (update_top atomic (root_of H m) b [] (hp []) nd d b' s sq Hne Hup) as (b2 & Hup2).
    destruct (update_seq H limit atomic TrieHeight (root_of H m) b [] [] 0 s hp nd d b2 sq) as (hp1 & Hq1 & _);
      [intros Hx; exfalso; apply Hx; reflexivity | exact Hup2|].
    exists nd, d, sq, hp1. rewrite ?Hnd. split; [exact Hrun|]. split; [reflexivity|]. split; [exact Hinv'|]. split; [exact Hq1|].
    exists (cells H G TrieHeight (keys m ++ keys b) [] [] 0).
    apply (update_foot H Hlen limit atomic G Hcf Hnz TrieHeight); auto.
    - right. reflexivity.
    - apply placed_top.
    - intros Hx. exfalso. apply Hx. reflexivity.
  Qed.

  Lemma sim_same s t x : sim s t -> x <> zero_hash -> same_at x (db s) (db t).
  Proof. intros Hs Hx. apply (Hs (CHash x) I). intros Hq. inversion Hq. contradiction. Qed.

  Lemma nodes_nz m s x : represents m s -> In x (nodes H TrieHeight (build TrieHeight m)) -> x <> zero_hash.
  Proof.
    intros Hr Hx. pose proof (top_good H G m (represents_top H G m s Hr)) as Hg.
    destruct (nodes_good H G TrieHeight _ x Hg Hx) as (h2 & t2 & _ & Hg2 & Hne2 & _ & <- & _).
    apply (good_nz H G Hnz h2 t2 Hg2 Hne2).
  Qed.

  Lemma inv_sim n m s1 s2 : inv (S n) m (db s1) -> sim s2 s1 -> inv (S n) m (db s2).
  Proof.
    intros (Hrep & _ & Hrem) Hs. pose proof (nodes_nz m (db s1)) as Hz.
    pose proof Hrep as (Hm & Hsep & Hc & Hsto & Hlv).
    split; [|split; [discriminate|]].
    - split; [exact Hm|]. split; [exact Hsep|]. split; [exact Hc|]. split.
      + eapply stored_frame; [|exact Hsto]. intros x Hx.
        destruct (sim_same _ _ x Hs (Hz x Hrep Hx)) as (_ & Hu & _ & Ho). unfold pend. rewrite Hu, Ho. reflexivity.
      + intros x b Hx h t Hg Hne Hmod Hh.
        assert (Hx0 : x <> zero_hash) by (rewrite <- Hh; apply (good_nz H G Hnz h t Hg Hne)).
        destruct (sim_same _ _ x Hs Hx0) as (Hl & Hu & _). rewrite Hl, Hu in Hx. eapply Hlv; eauto.
    - intros Hn x Hr Hx. destruct (sim_same _ _ x Hs (Hz x Hrep Hx)) as (_ & _ & Hq & _). rewrite Hq in Hr.
      apply (Hrem Hn x Hr Hx).
  Qed.

  (** ** One update *)
  Theorem schedule n m s b m' atomic hp : inv n m s -> is_batch b -> b <> [] -> effective m b -> ~ straddled m b ->
    sep (keys m ++ keys b) -> is_map m' -> overridden m b m' -> covers m' ->
    exists sq, trie_update H limit atomic (root_of H m) b s = (Ok (root_of H m'), sq) /\
    forall r s', steps (trie_update_p H limit atomic (root_of H m) b) (mk_st s hp) (Ret r) s' ->
      option_map (fun x => firstn HashLength (fst x)) r = Some (root_of H m') /\
      (no_zero s -> no_zero (db s') /\ forall x, same_at x (db s') sq) /\ inv (S n) m' (db s').
  Proof.
    intros Hinv Hb Hne He Hst Hsep Hm' Ho Hc'.
    destruct (top_foot n m s b m' atomic hp Hinv Hb Hne He Hst Hsep Hm' Ho Hc')
      as (nd & d & sq & hpq & Hrun & Hnd & Hinv' & Hseq & P & Hf).
    exists sq. split; [exact Hrun|]. intros r s' Hss.
    destruct (steps_foot _ _ _ _ Hss P Hf) as (_ & Hr & Hsim). rewrite Hseq in Hr, Hsim. cbn [seqp fst snd] in Hr, Hsim.
    subst r. split; [cbn [option_map fst]; rewrite Hnd; reflexivity|]. split.
    - intros Hz. split; [exact (no_zero_kept _ _ Hz (zero_steps _ _ _ _ Hss P Hf))|]. intros x.
      destruct (hash_dec x zero_hash) as [->|Hx]; [|apply (sim_same s' (mk_st sq hpq)); assumption].
      apply (zero_same s); [exact Hz | exact (zero_steps _ _ _ _ Hss P Hf)|].
      pose proof (seqp_steps (trie_update_p H limit atomic (root_of H m) b) (mk_st s hp)) as Hsq. rewrite Hseq in Hsq.
      exact (zero_steps _ _ _ _ Hsq P Hf).
    - apply (inv_sim n m' (mk_st sq hpq)); assumption.
  Qed.

  (** ** Histories *)
  Lemma other_inv o n m ops m' s : history H G n m (o :: ops) m' -> (forall atomic b, o <> OpUpdate atomic b) -> inv n m s ->
    exists n' s', run_op H limit o (root_of H m) s = (Ok (root_of H m), s') /\ inv n' m s' /\ history H G n' m ops m'.
  Proof.
    intros Hh Hno Hinv.
    assert (Hgo : exists n', history H G n' m ops m' /\
      runs (run_op H limit o (root_of H m)) s (fun r s' => r = root_of H m /\ inv n' m s')).
    { inversion Hh as [|n0 m0 at0 b0 m1 ops0 m2|n0 m0 ops0 m1 Hn H1|n0 m0 ops0 m1 H1|m0 ops0 m1 H1|n0 m0 k ops0 m1 H1|n0 m0 k ops0 m1 Hk H1]; subst.
      - exfalso. eapply Hno. reflexivity.
      - exists 0. split; [exact H1|]. cbn [run_op]. apply runs_bind. eapply runs_mono; [|apply (commit_inv H Hlen G n m s Hn Hinv)]. 
        intros a s' Hi. apply runs_ret. auto.
      - exists n. split; [exact H1|]. cbn [run_op]. apply runs_bind. eapply runs_mono; [|apply (reset_inv H G n m s Hinv)]. 
        intros a s' Hi. apply runs_ret. auto.
      - exists 0. split; [exact H1|]. cbn [run_op]. apply runs_bind. eapply runs_mono; [|apply (reopen_inv H G m s Hinv)]. 
        intros a s' Hi. apply runs_ret. auto.
      - exists n. split; [exact H1|]. cbn [run_op]. apply runs_bind.
        eapply runs_mono; [|apply (get_represented H Hlen limit G Hcf m s k (proj1 Hinv))]. 
        intros a s' (_ & Hr & Hss). apply runs_ret. split; [reflexivity|]. eapply read_inv; eauto.
      - exists n. split; [exact H1|]. cbn [run_op]. apply runs_bind.
        eapply runs_mono; [|apply (merkle_represented H Hlen limit G Hcf m s k (proj1 Hinv) Hk)]. 
        intros a s' (_ & Hr & Hss). apply runs_ret. split; [reflexivity|]. eapply read_inv; eauto. }
    destruct Hgo as (n' & Hh' & r & s' & Hrun & -> & Hi). exists n', s'. auto.
  Qed.

  Lemma op_cases o : (exists atomic b, o = OpUpdate atomic b) \/ (forall atomic b, o <> OpUpdate atomic b).
  Proof. destruct o; [left; eauto|right; congruence..]. Qed.

  Lemma par_op_inv o ops n m m' s r s' : history H G n m (o :: ops) m' -> inv n m s -> no_zero s ->
    par_op H limit o (root_of H m) s r s' ->
    exists n1 m1, r = Some (root_of H m1) /\ inv n1 m1 s' /\ no_zero s' /\ history H G n1 m1 ops m'.
  Proof.
    intros Hh Hinv Hz Hop. destruct (op_cases o) as [(atomic & b & ->)|Hno].
    - inversion Hh as [|n0 m0 at0 b0 m1 ops0 m2 Hb He Hst Hsep Hm1 Ho Hc1 Hh1| | | | |]; subst.
      exists (S n), m1. inversion Hop as [at0 b0 root0 s0 hp r0 s1 Hne Hss|at0 root0 s0|o0 root0 s0 r0 s1 Hno Hrun]; subst.
      + destruct (schedule n m s b m1 atomic hp Hinv Hb Hne He Hst Hsep Hm1 Ho Hc1) as (sq & _ & Hall).
        destruct (Hall r0 s1 Hss) as (Hr & Hz1 & Hi). split; [exact Hr|]. split; [exact Hi|]. split; [apply Hz1; exact Hz | exact Hh1].
      + destruct (update_inv H Hlen limit G Hcf Hnz n m s' [] m1 atomic Hinv Hb He Hst Hsep Hm1 Ho Hc1)
          as (r & s2 & Hrun & -> & Hi & _). cbn [trie_update] in Hrun. unfold ret in Hrun.
        inversion Hrun; subst. split; [congruence|]. auto.
      + exfalso. eapply Hno. reflexivity.
    - destruct (other_inv o n m ops m' s Hh Hno Hinv) as (n1 & s1 & Hrun & Hi & Hh1).
      inversion Hop as [at0 b0 root0 s0 hp r0 s2 Hne Hss|at0 root0 s0|o0 root0 s0 r0 s2 _ Hrun2]; subst;
        try (exfalso; eapply Hno; reflexivity).
      pose proof (keeps_other H limit o (root_of H m) Hno s Hz) as Hk. rewrite Hrun in Hrun2, Hk.
      inversion Hrun2; subst. exists n1, m. auto.
  Qed.

  Theorem par_inv ops : forall n m m' s r s', history H G n m ops m' -> inv n m s -> no_zero s ->
    par_run H limit ops (root_of H m) s r s' -> r = Some (root_of H m') /\ no_zero s' /\ exists n', inv n' m' s'.
  Proof.
    induction ops as [|o ops IH]; intros n m m' s r s' Hh Hinv Hz Hp.
    - inversion Hp; subst. inversion Hh; subst. eauto.
    - inversion Hp as [|o0 ops0 root0 s0 s1 Ho|o0 ops0 root0 s0 r1 s1 r2 s2 Ho Hrest]; subst.
      + destruct (par_op_inv _ _ _ _ _ _ _ _ Hh Hinv Hz Ho) as (n1 & m1 & Hr & _). discriminate.
      + destruct (par_op_inv _ _ _ _ _ _ _ _ Hh Hinv Hz Ho) as (n1 & m1 & Hr & Hi & Hz1 & Hh1). inversion Hr; subst.
        eapply IH; eauto.
  Qed.

  Lemma par_exists ops : forall root s, exists r s', par_run H limit ops root s r s'.
  Proof.
    induction ops as [|o ops IH]; intros root s; [eexists; eexists; constructor|].
    assert (Ho : exists r s', par_op H limit o root s r s').
    { destruct (op_cases o) as [(atomic & b & ->)|Hno].
      - destruct b as [|kv b]; [eexists; eexists; apply po_empty|].
        destruct (finishes _ (finite_all (trie_update_p H limit atomic root (kv :: b))) (mk_st s (fun _ => []))) as (r & s' & Hss).
        eexists. eexists. eapply po_update; [discriminate | exact Hss].
      - destruct (run_op H limit o root s) as [r s'] eqn:Hr. eexists. eexists. eapply po_other; eauto. }
    destruct Ho as ([r|] & s' & Ho).
    - destruct (IH r s') as (r2 & s2 & Hr). exists r2, s2. eapply pr_cons; eauto.
    - exists None, s'. apply pr_error. exact Ho.
  Qed.

  Lemma par_fresh ops m r s : history H G 0 [] ops m -> par_run H limit ops [] fresh r s ->
    r = Some (root_of H m) /\ no_zero s /\ exists n, inv n m s.
  Proof.
    intros Hh Hp. apply (par_inv ops 0 [] m fresh r s Hh); [apply inv_fresh, covers_nil | repeat split | exact Hp].
  Qed.

  Theorem par_history ops m ks : history H G 0 [] ops m ->
    (exists r s, par_run H limit ops [] fresh r s) /\
    forall r s, par_run H limit ops [] fresh r s ->
      r = Some (root_of H m) /\ exists s', gets limit (root_of H m) ks s = (Ok (map (value_in m) ks), s').
  Proof.
    intros Hh. split; [apply par_exists|]. intros r s Hp.
    destruct (par_fresh ops m r s Hh Hp) as (Hr & _ & n & Hrep & _).
    split; [exact Hr|]. destruct (gets_represented H Hlen limit G Hcf m ks s Hrep) as (vs & s' & Hg & -> & _). eauto.
  Qed.

  Theorem par_update ops m r s atomic b m' : history H G 0 [] ops m -> par_run H limit ops [] fresh r s ->
    b <> [] -> is_batch b -> effective m b -> ~ straddled m b ->
    sep (keys m ++ keys b) -> is_map m' -> overridden m b m' -> covers m' ->
    exists sq, trie_update H limit atomic (root_of H m) b s = (Ok (root_of H m'), sq) /\
    forall hp r' s', steps (trie_update_p H limit atomic (root_of H m) b) (mk_st s hp) (Ret r') s' ->
      option_map (fun x => firstn HashLength (fst x)) r' = Some (root_of H m') /\ forall x, same_at x (db s') sq.
  Proof.
    intros Hh Hp Hne Hb He Hst Hsep Hm' Ho Hc'. destruct (par_fresh ops m r s Hh Hp) as (_ & Hz & n & Hinv).
    destruct (schedule n m s b m' atomic (fun _ => []) Hinv Hb Hne He Hst Hsep Hm' Ho Hc') as (sq & Hrun & _).
    exists sq. split; [exact Hrun|]. intros hp r' s' Hss.
    destruct (schedule n m s b m' atomic hp Hinv Hb Hne He Hst Hsep Hm' Ho Hc') as (sq' & Hrun' & Hall).
    rewrite Hrun in Hrun'. inversion Hrun'; subst sq'. destruct (Hall r' s' Hss) as (Hr & Hx & _).
    split; [exact Hr|]. apply Hx. exact Hz.
  Qed.
End ParTop.

(** Schedules end: there is no infinite one, and a configuration without a next step has finished. *)
Definition next_conf (c c' : prog * st) : Prop := step (fst c') (snd c') (fst c) (snd c).
Lemma schedules_end p s : Acc next_conf (p, s) /\
  forall p' s', steps p s p' s' -> (exists r, p' = Ret r) \/ exists p'' s'', step p' s' p'' s''.
Proof. split; [apply (terminates p (finite_all p) s)|]. intros p' s' _. apply progress. Qed.
