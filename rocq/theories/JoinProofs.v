(** Proofs about the link between the two halves of the ingestion. *)
From Verif Require Import Base BaseLemmas SysModel SysProofs PipeModel PipeProofs PipeErrors JoinModel.

Lemma upd_same {A} (f : nat -> A) i x : upd f i x i = x.
Proof. unfold upd. rewrite Nat.eqb_refl. reflexivity. Qed.
Lemma upd_other {A} (f : nat -> A) i x j : j <> i -> upd f i x j = f j.
Proof. intros H. unfold upd. apply Nat.eqb_neq in H. rewrite H. reflexivity. Qed.

(** Sums over the indices below a bound *)
Fixpoint sumb (n : nat) (f : nat -> nat) : nat := match n with O => 0 | S m => sumb m f + f m end.
Lemma sumb_ext n f g : (forall i, i < n -> f i = g i) -> sumb n f = sumb n g.
Proof. intros H. induction n as [|n IH]; [reflexivity|]. cbn. rewrite IH by (intros; apply H; lia). rewrite (H n) by lia. reflexivity. Qed.
Lemma sumb_upd {A} (h : A -> nat) n f i x : i < n -> sumb n (fun j => h (upd f i x j)) + h (f i) = sumb n (fun j => h (f j)) + h x.
Proof.
  induction n as [|n IH]; [lia|]. intros H. cbn. destruct (Nat.eq_dec i n) as [->|Hn].
  - rewrite upd_same. rewrite (sumb_ext n (fun j => h (upd f n x j)) (fun j => h (f j))); [lia|]. intros j Hj. rewrite upd_other by lia. reflexivity.
  - rewrite (upd_other f i x n) by lia. specialize (IH ltac:(lia)). lia.
Qed.
Lemma sumb_le1 n (f : nat -> bool) : sumb n (fun i => if f i then 1 else 0) <= n.
Proof. induction n as [|n IH]; cbn; [lia|]. destruct (f n); lia. Qed.
Lemma all_below_spec n f : all_below n f = true <-> forall i, i < n -> f i = true.
Proof.
  unfold all_below. rewrite forallb_forall. split; intros H i Hi; apply H; [apply in_seq; lia | apply in_seq in Hi; lia].
Qed.
Lemma not_all_below n f : all_below n f = false -> exists i, i < n /\ f i = false.
Proof.
  intros H. destruct (existsb (fun i => negb (f i)) (seq 0 n)) eqn:E.
  - apply existsb_exists in E as (i & Hi & Ei). apply in_seq in Hi. exists i. split; [lia|]. destruct (f i); [discriminate | reflexivity].
  - exfalso. assert (X : all_below n f = true); [|congruence]. apply all_below_spec. intros i Hi. destruct (f i) eqn:Ef; [reflexivity|].
    assert (Y : existsb (fun i => negb (f i)) (seq 0 n) = true); [|congruence]. apply existsb_exists. exists i. split; [apply in_seq; lia | rewrite Ef; reflexivity].
Qed.
(** Either all, or one for which it fails *)
Lemma below_dec n (f : nat -> bool) : (forall i, i < n -> f i = true) \/ exists i, i < n /\ f i = false.
Proof. destruct (all_below n f) eqn:E; [left; apply all_below_spec; exact E | right; apply not_all_below; exact E]. Qed.

(** Every fair schedule comes to a good state, if from every state that is not good some step is possible and every step makes a number smaller *)
Lemma fair_reaches {S A} (step : S -> A -> option S) (I G : S -> Prop) (rank : S -> nat) :
  (forall s a s', I s -> step s a = Some s' -> I s') -> (forall s a s', I s -> step s a = Some s' -> rank s' < rank s) ->
  (forall s, I s -> G s \/ exists a, step s a <> None) -> forall f s, I s -> fair f -> exists n, G (run step s (prefix f n)).
Proof.
  intros I_step R_step progress f s0 Hs0 Hf.
  assert (X : forall r s n, I s -> rank s < r -> run step s0 (prefix f n) = s -> exists m, G (run step s0 (prefix f m))).
  2:{ exact (X _ s0 0 Hs0 (Nat.lt_succ_diag_r _) eq_refl). }
  induction r as [|r IH]; [lia|]. intros s n Hs Hr En. destruct (progress s Hs) as [H|[a Ha]]; [exists n; rewrite En; exact H|].
  destruct (Hf n a) as (m & Hm & Em).
  assert (K : forall k, (run step s0 (prefix f (n + k)) = s) \/ (exists j s' b, run step s0 (prefix f j) = s' /\ step s b = Some s')).
  { induction k as [|k IHk]; [left; rewrite Nat.add_0_r; exact En|]. destruct IHk as [E|E]; [|right; exact E].
    replace (n + Datatypes.S k) with (Datatypes.S (n + k)) by lia. cbn [prefix]. rewrite run_app, E. cbn.
    unfold do. destruct (step s (f (n + k))) as [s'|] eqn:Es; [|left; reflexivity].
    right. exists (Datatypes.S (n + k)), s', (f (n + k)). split; [|exact Es]. cbn [prefix]. rewrite run_app, E. cbn. unfold do. rewrite Es. reflexivity. }
  destruct (K (m - n)) as [E|(j & s' & b & Ej & Eb)].
  - replace (n + (m - n)) with m in E by lia. destruct (step s a) as [s'|] eqn:Es; [|contradiction].
    pose proof (R_step s a s' Hs Es). apply (IH s' (Datatypes.S m) (I_step s a s' Hs Es)); [lia|]. cbn [prefix]. rewrite run_app, E. cbn.
    unfold do. rewrite Em, Es. reflexivity.
  - pose proof (R_step s b s' Hs Eb). apply (IH s' j (I_step s b s' Hs Eb)); [lia | exact Ej].
Qed.

Ltac upd_at x := let E := fresh "Eu" in unfold upd in *; destruct (x =? _) eqn:E; [apply Nat.eqb_eq in E; subst | apply Nat.eqb_neq in E].

Section Join.
  Context {D : Type}.
  Variable C K : nat.
  Variable route : D -> nat * nat.
  Variable own : nat -> err.
  Variable fails fails_end : nat -> list D -> option bytes.
  Notation join := (@join D).
  Notation step := (join_step C K route own fails fails_end).

  (** ** The steps *)
  Inductive jtrans (c : join) : join -> Prop :=
  | T_send i d rest : i < C -> ppc (prods c i) = PWork -> pleft (prods c i) = d :: rest -> fwds c i = FWait ->
      jtrans c (with_fwd (with_prod c i (mk_prod PWork (pfound (prods c i)) rest (psent (prods c i) ++ [d]))) i (FSend d true true))
  | T_stop i : i < C -> ppc (prods c i) = PWork -> pleft (prods c i) = [] -> jtrans c (with_prod c i (at_pc (prods c i) PStop (own i)))
  | T_closep i : i < C -> ppc (prods c i) = PStop -> jtrans c (with_prod c i (at_pc (prods c i) PBrk (pfound (prods c i))))
  | T_hear i p : i < C -> eclosed c = true -> listen (prods c i) [] = Some p -> jtrans c (with_prod c i p)
  | T_first i d b : i < C -> fwds c i = FSend d true b -> fst (route d) < K -> closes c = 0 -> wpc (wstages c (fst (route d))) = WWork ->
      jtrans c (with_wstage (with_fwd c i (FSend d false b)) (fst (route d)) (got fails (fst (route d)) (wstages c (fst (route d))) d))
  | T_second i d a : i < C -> fwds c i = FSend d a true -> snd (route d) < K -> closes c = 0 -> wpc (wstages c (snd (route d))) = WWork ->
      jtrans c (with_wstage (with_fwd c i (FSend d a false)) (snd (route d)) (got fails (snd (route d)) (wstages c (snd (route d))) d))
  | T_panic i d a b : i < C -> fwds c i = FSend d a b -> (0 < closes c \/ K <= fst (route d) \/ K <= snd (route d)) -> jtrans c (with_panic c)
  | T_next i d : i < C -> fwds c i = FSend d false false -> jtrans c (with_fwd c i FWait)
  | T_endf i : i < C -> fwds c i = FWait -> (ppc (prods c i) = PBrk \/ ppc (prods c i) = PDone) -> jtrans c (with_fwd c i FDone)
  | T_close : (forall i, i < C -> fwds c i = FDone) -> closes c = 0 -> jtrans c (with_close c)
  | T_end k : k < K -> 0 < closes c -> wpc (wstages c k) = WWork -> jtrans c (with_wstage c k (got_end fails_end k (wstages c k)))
  | T_fail k e : k < K -> wpc (wstages c k) = WFail e -> readers c k = EWait ->
      jtrans c (with_reader (with_wstage c k (mk_wstage WDone (wrcvd (wstages c k)) (wend (wstages c k)))) k (ESend e (fun i => i <? C)))
  | T_give k i e pending p : k < K -> i < C -> readers c k = ESend e pending -> pending i = true -> listen (prods c i) [e] = Some p ->
      jtrans c (with_reader (with_prod c i p) k (ESend e (upd pending i false)))
  | T_nexte k e pending : k < K -> readers c k = ESend e pending -> (forall i, i < C -> pending i = false) -> jtrans c (with_reader c k EWait)
  | T_ende k : k < K -> readers c k = EWait -> wpc (wstages c k) = WDone -> jtrans c (with_reader c k EDone)
  | T_closee : (forall k, k < K -> readers c k = EDone) -> eclosed c = false -> jtrans c (with_eclosed c).

  Lemma step_trans c a c' : step c a = Some c' -> panicked c = false /\ jtrans c c'.
  Proof.
    unfold join_step. destruct (panicked c); [discriminate|]. intros H. split; [reflexivity|]. destruct a; cbn zeta in H.
    - destruct (ppc (prods c i)) eqn:E1; try discriminate. destruct (pleft (prods c i)) as [|d rest] eqn:E2; [discriminate|].
      destruct (fwds c i) eqn:E3; try discriminate. destruct (i <? C) eqn:E4; [|discriminate]. injection H as <-. apply Nat.ltb_lt in E4. apply T_send; assumption.
    - destruct (ppc (prods c i)) eqn:E1; try discriminate. destruct (pleft (prods c i)) eqn:E2; [|discriminate]. destruct (i <? C) eqn:E4; [|discriminate].
      injection H as <-. apply Nat.ltb_lt in E4. apply T_stop; assumption.
    - destruct (ppc (prods c i)) eqn:E1; try discriminate. destruct (i <? C) eqn:E4; [|discriminate]. injection H as <-. apply Nat.ltb_lt in E4. apply T_closep; assumption.
    - destruct (eclosed c) eqn:E1; [|discriminate]. cbn [negb andb orb] in H. destruct (i <? C) eqn:E4; [|discriminate]. apply Nat.ltb_lt in E4.
      destruct (listen (prods c i) []) as [p|] eqn:E2; [|discriminate]. injection H as <-. apply T_hear; assumption.
    - destruct (fwds c i) as [|d [] b|] eqn:E1; try discriminate. destruct (i <? C) eqn:E4; [|discriminate]. apply Nat.ltb_lt in E4. unfold give in H.
      destruct (fst (route d) <? K) eqn:E2; cbn [negb andb orb] in H.
      + apply Nat.ltb_lt in E2. destruct (0 <? closes c) eqn:E3; [apply Nat.ltb_lt in E3 | apply Nat.ltb_ge in E3].
        2:{ destruct (wpc (wstages c (fst (route d)))) eqn:E5; try discriminate. injection H as <-. apply T_first; try assumption. lia. }
        injection H as <-. apply (T_panic c i d true b); [exact E4 | exact E1 | left; lia].
      + injection H as <-. apply Nat.ltb_ge in E2. apply (T_panic c i d true b); [exact E4 | exact E1 | right; left; exact E2].
    - destruct (fwds c i) as [|d a []|] eqn:E1; try discriminate. destruct (i <? C) eqn:E4; [|discriminate]. apply Nat.ltb_lt in E4. unfold give in H.
      destruct (snd (route d) <? K) eqn:E2; cbn [negb andb orb] in H.
      + apply Nat.ltb_lt in E2. destruct (0 <? closes c) eqn:E3; [apply Nat.ltb_lt in E3 | apply Nat.ltb_ge in E3].
        2:{ destruct (wpc (wstages c (snd (route d)))) eqn:E5; try discriminate. injection H as <-. apply T_second; try assumption. lia. }
        injection H as <-. apply (T_panic c i d a true); [exact E4 | exact E1 | left; lia].
      + injection H as <-. apply Nat.ltb_ge in E2. apply (T_panic c i d a true); [exact E4 | exact E1 | right; right; exact E2].
    - destruct (fwds c i) as [|d [] []|] eqn:E1; try discriminate. destruct (i <? C) eqn:E4; [|discriminate]. injection H as <-. apply Nat.ltb_lt in E4. exact (T_next c i d E4 E1).
    - destruct (fwds c i) eqn:E1; try discriminate. destruct (ppc (prods c i)) eqn:E2; try discriminate; (destruct (i <? C) eqn:E4; [|discriminate]);
        injection H as <-; apply Nat.ltb_lt in E4; apply T_endf; auto.
    - destruct (all_below C (fun i => f_done (fwds c i))) eqn:E1; [|discriminate]. cbn [negb andb orb] in H. destruct (closes c =? 0) eqn:E2; [|discriminate]. injection H as <-.
      apply Nat.eqb_eq in E2. apply T_close; [|exact E2]. intros i Hi. rewrite all_below_spec in E1. specialize (E1 i Hi). destruct (fwds c i); [discriminate | discriminate | reflexivity].
    - destruct (wpc (wstages c k)) eqn:E1; try discriminate. destruct (0 <? closes c) eqn:E2; [|discriminate]. cbn [negb andb orb] in H. destruct (k <? K) eqn:E3; [|discriminate].
      injection H as <-. apply Nat.ltb_lt in E2. apply Nat.ltb_lt in E3. apply T_end; assumption.
    - destruct (wpc (wstages c k)) eqn:E1; try discriminate. destruct (readers c k) eqn:E2; try discriminate. destruct (k <? K) eqn:E3; [|discriminate].
      injection H as <-. apply Nat.ltb_lt in E3. apply T_fail; assumption.
    - destruct (readers c k) as [|e pending|] eqn:E1; try discriminate. destruct (pending i) eqn:E2; [|discriminate]. cbn [negb andb orb] in H. destruct (i <? C) eqn:E3; [|discriminate].
      cbn [negb andb orb] in H. destruct (k <? K) eqn:E4; [|discriminate]. destruct (listen (prods c i) [e]) as [p|] eqn:E5; [|discriminate]. injection H as <-.
      apply Nat.ltb_lt in E3. apply Nat.ltb_lt in E4. apply T_give; assumption.
    - destruct (readers c k) as [|e pending|] eqn:E1; try discriminate. destruct (all_below C (fun i => negb (pending i))) eqn:E2; [|discriminate]. cbn [negb andb orb] in H.
      destruct (k <? K) eqn:E3; [|discriminate]. injection H as <-. apply Nat.ltb_lt in E3. apply (T_nexte c k e pending E3 E1). intros i Hi. rewrite all_below_spec in E2.
      specialize (E2 i Hi). destruct (pending i); [discriminate | reflexivity].
    - destruct (readers c k) eqn:E1; try discriminate. destruct (wpc (wstages c k)) eqn:E2; try discriminate. destruct (k <? K) eqn:E3; [|discriminate].
      injection H as <-. apply Nat.ltb_lt in E3. apply T_ende; assumption.
    - destruct (all_below K (fun k => e_done (readers c k))) eqn:E1; [|discriminate]. cbn [negb andb orb] in H. destruct (eclosed c) eqn:E2; [discriminate|]. injection H as <-.
      apply T_closee; [|exact E2]. intros k Hk. rewrite all_below_spec in E1. specialize (E1 k Hk). destruct (readers c k); [discriminate | discriminate | reflexivity].
  Qed.

  Lemma listen_cases (p p' : @prod D) e : listen p e = Some p' ->
    (ppc p = PWork /\ p' = at_pc p PStop e) \/ (ppc p = PBrk /\ p' = at_pc p PDone (coalesce (pfound p) e)).
  Proof. unfold listen. destruct (ppc p); intros H; try discriminate; injection H as <-; auto. Qed.

  (** ** Every step makes a number smaller *)
  Definition p_rank (p : @prod D) : nat := 6 * length (pleft p) + match ppc p with PWork => 3 | PStop => 2 | PBrk => 1 | PDone => 0 end.
  Definition f_rank (f : @fwd D) : nat := match f with FWait => 1 | FSend _ a b => 2 + (if a then 1 else 0) + (if b then 1 else 0) | FDone => 0 end.
  Definition w_rank (w : @wstage D) : nat := match wpc w with WWork => C + 5 | WFail _ => C + 4 | WDone => 0 end.
  Definition e_rank (r : reader) : nat := match r with EWait => 1 | ESend _ p => 2 + sumb C (fun i => if p i then 1 else 0) | EDone => 0 end.
  Definition rank (c : join) : nat :=
    sumb C (fun i => p_rank (prods c i)) + sumb C (fun i => f_rank (fwds c i)) + sumb K (fun k => w_rank (wstages c k)) + sumb K (fun k => e_rank (readers c k)) +
    (1 - closes c) + (if eclosed c then 0 else 1) + (if panicked c then 0 else 1).

  Lemma w_rank_got k w d : wpc w = WWork -> w_rank (got fails k w d) <= w_rank w.
  Proof. intros H. unfold w_rank, got. rewrite H. cbn. destruct (fails k (wrcvd w ++ [d])); lia. Qed.
  Lemma step_rank c a c' : step c a = Some c' -> rank c' < rank c.
  Proof.
    intros H. apply step_trans in H as [Hp H]. unfold rank.
    destruct H; unfold with_prod, with_fwd, with_wstage, with_reader, with_close, with_eclosed, with_panic; cbn [prods fwds wstages readers closes eclosed panicked].
    - pose proof (sumb_upd p_rank C (prods c) i (mk_prod PWork (pfound (prods c i)) rest (psent (prods c i) ++ [d])) H) as X.
      pose proof (sumb_upd f_rank C (fwds c) i (FSend d true true) H) as Y. rewrite H2 in Y. cbn [f_rank] in Y.
      assert (p_rank (mk_prod PWork (pfound (prods c i)) rest (psent (prods c i) ++ [d])) + 6 = p_rank (prods c i)); [|lia]. unfold p_rank. rewrite H0, H1. cbn. lia.
    - pose proof (sumb_upd p_rank C (prods c) i (at_pc (prods c i) PStop (own i)) H) as X. 
      assert (p_rank (at_pc (prods c i) PStop (own i)) < p_rank (prods c i)); [|lia]. unfold p_rank. rewrite H0. cbn. lia.
    - pose proof (sumb_upd p_rank C (prods c) i (at_pc (prods c i) PBrk (pfound (prods c i))) H) as X. 
      assert (p_rank (at_pc (prods c i) PBrk (pfound (prods c i))) < p_rank (prods c i)); [|lia]. unfold p_rank. rewrite H0. cbn. lia.
    - pose proof (sumb_upd p_rank C (prods c) i p H) as X. assert (p_rank p < p_rank (prods c i)); [|lia].
      unfold p_rank. destruct (listen_cases _ _ _ H1) as [[E ->]|[E ->]]; rewrite E; cbn; lia.
    - pose proof (sumb_upd f_rank C (fwds c) i (FSend d false b) H) as Y. rewrite H0 in Y. cbn [f_rank e_rank] in Y.
      pose proof (sumb_upd w_rank K (wstages c) (fst (route d)) (got fails (fst (route d)) (wstages c (fst (route d))) d) H1) as X.
      pose proof (w_rank_got (fst (route d)) _ d H3). lia.
    - pose proof (sumb_upd f_rank C (fwds c) i (FSend d a0 false) H) as Y. rewrite H0 in Y. cbn [f_rank e_rank] in Y.
      pose proof (sumb_upd w_rank K (wstages c) (snd (route d)) (got fails (snd (route d)) (wstages c (snd (route d))) d) H1) as X.
      pose proof (w_rank_got (snd (route d)) _ d H3). destruct a0; lia.
    - rewrite Hp. lia.
    - pose proof (sumb_upd f_rank C (fwds c) i FWait H) as Y. rewrite H0 in Y. cbn [f_rank e_rank] in Y. lia.
    - pose proof (sumb_upd f_rank C (fwds c) i FDone H) as Y. rewrite H0 in Y. cbn [f_rank e_rank] in Y. lia.
    - rewrite H0. cbn. lia.
    - pose proof (sumb_upd w_rank K (wstages c) k (got_end fails_end k (wstages c k)) H) as X.
      assert (w_rank (got_end fails_end k (wstages c k)) < w_rank (wstages c k)); [|lia].
      unfold w_rank, got_end. rewrite H1. cbn. destruct (fails_end k (wrcvd (wstages c k))); lia.
    - pose proof (sumb_upd w_rank K (wstages c) k (mk_wstage WDone (wrcvd (wstages c k)) (wend (wstages c k))) H) as X. 
      assert (w_rank (mk_wstage WDone (wrcvd (wstages c k)) (wend (wstages c k))) + C + 4 = w_rank (wstages c k)) by (unfold w_rank; rewrite H0; cbn; lia).
      pose proof (sumb_upd e_rank K (readers c) k (ESend e (fun i => i <? C)) H) as Y. rewrite H1 in Y. cbn [f_rank e_rank] in Y. pose proof (sumb_le1 C (fun i => i <? C)). lia.
    - pose proof (sumb_upd p_rank C (prods c) i p H0) as X.
      pose proof (sumb_upd e_rank K (readers c) k (ESend e (upd pending i false)) H) as Y. rewrite H1 in Y. cbn [e_rank] in Y.
      pose proof (sumb_upd (fun x : bool => if x then 1 else 0) C pending i false H0) as Z. cbn beta in Z. rewrite H2 in Z.
      assert (p_rank p < p_rank (prods c i)); [|lia]. unfold p_rank. destruct (listen_cases _ _ _ H3) as [[E ->]|[E ->]]; rewrite E; cbn; lia.
    - pose proof (sumb_upd e_rank K (readers c) k EWait H) as Y. rewrite H0 in Y. cbn [f_rank e_rank] in Y. lia.
    - pose proof (sumb_upd e_rank K (readers c) k EDone H) as Y. rewrite H0 in Y. cbn [f_rank e_rank] in Y. lia.
    - rewrite H0. lia.
  Qed.

  (** ** What holds in every state *)
  Definition gaveup (k : nat) (w : @wstage D) (e : bytes) : Prop :=
    (wend w = false /\ wrcvd w <> [] /\ fails k (wrcvd w) = Some e) \/ (wend w = true /\ fails_end k (wrcvd w) = Some e).
  (** The error comes from a stage of the database half *)
  Definition blamed (c : join) (e : bytes) : Prop := exists k, k < K /\ wpc (wstages c k) <> WWork /\ gaveup k (wstages c k) e.

  Hypothesis route_ok : forall d, fst (route d) < K /\ snd (route d) < K.

  Record jinv (c : join) : Prop := {
    j_panic : panicked c = false;
    j_closes : closes c <= 1;
    j_closed : 0 < closes c -> forall i, i < C -> fwds c i = FDone;
    j_fdone : forall i, fwds c i = FDone -> ppc (prods c i) = PBrk \/ ppc (prods c i) = PDone;
    j_wwork : forall k, wpc (wstages c k) = WWork -> wend (wstages c k) = false /\ readers c k = EWait;
    j_wfail : forall k e, wpc (wstages c k) = WFail e -> gaveup k (wstages c k) e /\ readers c k = EWait;
    j_wdone : forall k, wpc (wstages c k) = WDone -> (wend (wstages c k) = true /\ fails_end k (wrcvd (wstages c k)) = None) \/ exists e, gaveup k (wstages c k) e;
    j_esend : forall k e p, readers c k = ESend e p -> wpc (wstages c k) = WDone /\ gaveup k (wstages c k) e;
    j_wend : forall k, wend (wstages c k) = true -> closes c = 1;
    j_eclosed : eclosed c = true -> forall k, k < K -> readers c k = EDone;
    j_found : forall i e, In e (pfound (prods c i)) -> In e (own i) \/ blamed c e }.


  Lemma jinv_start work : jinv (join_start work).
  Proof. split; cbn; try discriminate; try lia; auto; intros; try contradiction; discriminate. Qed.

  Lemma blamed_mono c c' e : (forall k, wpc (wstages c k) <> WWork ->
      wpc (wstages c' k) <> WWork /\ wrcvd (wstages c' k) = wrcvd (wstages c k) /\ wend (wstages c' k) = wend (wstages c k)) -> blamed c e -> blamed c' e.
  Proof. intros H (k & Hk & H1 & H2). exists k. destruct (H k H1) as (A & B & E). split; [exact Hk|]. split; [exact A|]. unfold gaveup. rewrite B, E. exact H2. Qed.

  Lemma jinv_step c a c' : jinv c -> step c a = Some c' -> jinv c'.
  Proof.
    intros I H. apply step_trans in H as [Hp H]. destruct I as [I1 I2 I3 I4 I5 I6 I7 I8 I9 I10 I11].
    destruct H; unfold with_prod, with_fwd, with_wstage, with_reader, with_close, with_eclosed, with_panic;
      (split; cbn [prods fwds wstages readers closes eclosed panicked]; try assumption).
    (* send *)
    - intros Hc j Hj. rewrite (I3 Hc i H) in H2. discriminate.
    - intros j. upd_at j; [discriminate | apply I4].
    - intros j e. unfold upd. destruct (j =? i) eqn:Ej; [apply Nat.eqb_eq in Ej; subst j; cbn|]; intros He; apply I11 in He as [He|He]; auto.
    (* stop *)
    - intros j Hf. upd_at j; cbn; [|apply I4; exact Hf]. destruct (I4 i Hf) as [X|X]; rewrite X in H0; discriminate.
    - intros j e. unfold upd. destruct (j =? i) eqn:Ej; [apply Nat.eqb_eq in Ej; subst j; cbn; intros He; left; exact He | intros He; apply I11 in He as [He|He]; auto].
    (* closep *)
    - intros j Hf. upd_at j; cbn; [left; reflexivity | apply I4; exact Hf].
    - intros j e. unfold upd. destruct (j =? i) eqn:Ej; [apply Nat.eqb_eq in Ej; subst j; cbn|]; intros He; apply I11 in He as [He|He]; auto.
    (* hear *)
    - intros j Hf. upd_at j; [|apply I4; exact Hf]. destruct (listen_cases _ _ _ H1) as [[E ->]|[E ->]]; cbn; [|auto]. destruct (I4 i Hf) as [X|X]; rewrite X in E; discriminate.
    - intros j e. unfold upd. destruct (j =? i) eqn:Ej; [apply Nat.eqb_eq in Ej; subst j|intros He; apply I11 in He as [He|He]; auto].
      destruct (listen_cases _ _ _ H1) as [[E ->]|[E ->]]; cbn; [contradiction|]. intros He. apply coalesce_in in He as [He|[]]. apply I11 in He as [He|He]; auto.
    (* first *)
    - rewrite H2. lia.
    - intros j. upd_at j; [discriminate | apply I4].
    - intros k. upd_at k; [|apply I5]. intros _. split; [reflexivity|]. exact (proj2 (I5 _ H3)).
    - intros k e. upd_at k; [|apply I6]. cbn [got wpc]. intros He. split; [|exact (proj2 (I5 _ H3))]. left. cbn [got wend wrcvd]. split; [reflexivity|]. split; [destruct (wrcvd (wstages c (fst (route d)))); discriminate|].
      destruct (fails (fst (route d)) (wrcvd (wstages c (fst (route d))) ++ [d])); [injection He as <-; reflexivity | discriminate].
    - intros k. upd_at k; [|apply I7]. cbn [got wpc]. destruct (fails _ _); discriminate.
    - intros k e p Hk. upd_at k; [|exact (I8 k e p Hk)]. rewrite (proj2 (I5 _ H3)) in Hk. discriminate.
    - intros k. upd_at k; [discriminate | apply I9].
    - intros j e He. apply I11 in He as [He|He]; [left; exact He|]. right. apply (blamed_mono c); [|exact He]. cbn. intros k Hk. upd_at k; [contradiction | auto].
    (* second *)
    - rewrite H2. lia.
    - intros j. upd_at j; [discriminate | apply I4].
    - intros k. upd_at k; [|apply I5]. intros _. split; [reflexivity|]. exact (proj2 (I5 _ H3)).
    - intros k e. upd_at k; [|apply I6]. cbn [got wpc]. intros He. split; [|exact (proj2 (I5 _ H3))]. left. cbn [got wend wrcvd]. split; [reflexivity|]. split; [destruct (wrcvd (wstages c (snd (route d)))); discriminate|].
      destruct (fails (snd (route d)) (wrcvd (wstages c (snd (route d))) ++ [d])); [injection He as <-; reflexivity | discriminate].
    - intros k. upd_at k; [|apply I7]. cbn [got wpc]. destruct (fails _ _); discriminate.
    - intros k e p Hk. upd_at k; [|exact (I8 k e p Hk)]. rewrite (proj2 (I5 _ H3)) in Hk. discriminate.
    - intros k. upd_at k; [discriminate | apply I9].
    - intros j e He. apply I11 in He as [He|He]; [left; exact He|]. right. apply (blamed_mono c); [|exact He]. cbn. intros k Hk. upd_at k; [contradiction | auto].
    (* panic *)
    - exfalso. destruct (route_ok d) as [A B]. destruct H1 as [H1|[H1|H1]]; [|lia|lia]. rewrite (I3 H1 i H) in H0. discriminate.
    (* next *)
    - intros Hc j Hj. rewrite (I3 Hc i H) in H0. discriminate.
    - intros j. upd_at j; [discriminate | apply I4].
    (* endf *)
    - intros Hc j Hj. upd_at j; [reflexivity | exact (I3 Hc j Hj)].
    - intros j. upd_at j; [intros _; exact H1 | apply I4].
    (* close *)
    - lia.
    - intros _. exact H.
    - intros k Hk. specialize (I9 k Hk). lia.
    (* end *)
    - intros k0. upd_at k0; [|apply I5]. cbn [got_end wpc]. destruct (fails_end _ _); discriminate.
    - intros k0 e. upd_at k0; [|apply I6]. cbn [got_end wpc]. intros He. split; [|exact (proj2 (I5 _ H1))]. right. cbn [got_end wend wrcvd]. split; [reflexivity|].
      destruct (fails_end k (wrcvd (wstages c k))); [injection He as <-; reflexivity | discriminate].
    - intros k0. upd_at k0; [|apply I7]. cbn [got_end wpc wend wrcvd]. intros He. left. split; [reflexivity|]. destruct (fails_end k (wrcvd (wstages c k))); [discriminate | reflexivity].
    - intros k0 e p Hk. upd_at k0; [|exact (I8 k0 e p Hk)]. rewrite (proj2 (I5 _ H1)) in Hk. discriminate.
    - intros k0. upd_at k0; [|apply I9]. intros _. lia.
    - intros j e He. apply I11 in He as [He|He]; [left; exact He|]. right. apply (blamed_mono c); [|exact He]. cbn. intros k0 Hk. upd_at k0; [contradiction | auto].
    (* fail *)
    - intros k0. upd_at k0; [discriminate | apply I5].
    - intros k0 e0. upd_at k0; [discriminate | apply I6].
    - intros k0. upd_at k0; [|apply I7]. intros _. right. exists e. exact (proj1 (I6 _ _ H0)).
    - intros k0 e0 p. upd_at k0; [|apply I8]. intros X. injection X as <- _. split; [reflexivity|]. exact (proj1 (I6 _ _ H0)).
    - intros k0. upd_at k0; [cbn; apply I9 | apply I9].
    - intros He k0 Hk. specialize (I10 He k0 Hk). upd_at k0; [rewrite I10 in H1; discriminate | exact I10].
    - intros j e0 He. apply I11 in He as [He|He]; [left; exact He|]. right. apply (blamed_mono c); [|exact He]. cbn. intros k0 Hk. upd_at k0; [cbn; split; [discriminate|auto] | auto].
    (* give *)
    - intros j Hf. upd_at j; [|apply I4; exact Hf]. destruct (listen_cases _ _ _ H3) as [[E ->]|[E ->]]; cbn; [|auto]. destruct (I4 i Hf) as [X|X]; rewrite X in E; discriminate.
    - intros k0 Hk. upd_at k0; [|exact (I5 _ Hk)]. destruct (I5 _ Hk) as [_ X]. rewrite X in H1. discriminate.
    - intros k0 e0 Hk. upd_at k0; [|exact (I6 _ _ Hk)]. destruct (I6 _ _ Hk) as [_ X]. rewrite X in H1. discriminate.
    - intros k0 e0 p0. unfold upd at 1. destruct (k0 =? k) eqn:Ek; [apply Nat.eqb_eq in Ek; subst k0|apply I8]. intros X. injection X as <- _. exact (I8 _ _ _ H1).
    - intros He k0 Hk. specialize (I10 He k0 Hk). unfold upd at 1. destruct (k0 =? k) eqn:Ek; [apply Nat.eqb_eq in Ek; subst k0; rewrite I10 in H1; discriminate | exact I10].
    - assert (G : blamed c e). { exists k. split; [exact H|]. destruct (I8 _ _ _ H1) as [A B]. split; [rewrite A; discriminate | exact B]. }
      intros j e0. unfold upd at 1. destruct (j =? i) eqn:Ej; [apply Nat.eqb_eq in Ej; subst j|intros He; apply I11 in He as [He|He]; auto].
      destruct (listen_cases _ _ _ H3) as [[E ->]|[E ->]]; cbn.
      + intros [<-|[]]. right. exact G.
      + intros He. apply coalesce_in in He as [He|[<-|[]]]; [apply I11 in He as [He|He]; auto | right; exact G].
    (* nexte *)
    - intros k0 Hk. upd_at k0; [|exact (I5 _ Hk)]. split; [exact (proj1 (I5 _ Hk)) | reflexivity].
    - intros k0 e0 Hk. upd_at k0; [|exact (I6 _ _ Hk)]. split; [exact (proj1 (I6 _ _ Hk)) | reflexivity].
    - intros k0 e0 p0. upd_at k0; [discriminate | apply I8].
    - intros He k0 Hk. specialize (I10 He k0 Hk). upd_at k0; [rewrite I10 in H0; discriminate | exact I10].
    (* ende *)
    - intros k0 Hk. upd_at k0; [rewrite Hk in H1; discriminate | exact (I5 _ Hk)].
    - intros k0 e0 Hk. upd_at k0; [rewrite Hk in H1; discriminate | exact (I6 _ _ Hk)].
    - intros k0 e0 p0. upd_at k0; [discriminate | apply I8].
    - intros He k0 Hk. upd_at k0; [reflexivity | exact (I10 He k0 Hk)].
    (* closee *)
    - intros _. exact H.
  Qed.
  Lemma jinv_run work l : jinv (run step (join_start work) l).
  Proof. apply run_inv; [exact jinv_step | apply jinv_start]. Qed.

  (** ** Who received what *)
  (** [l] consists of the elements of the lists [g 0], [g 1], …, those of each in their order *)
  Inductive woven : (nat -> list D) -> list D -> Prop :=
  | woven_nil : woven (fun _ => []) []
  | woven_snoc g l i d : woven g l -> woven (upd g i (g i ++ [d])) (l ++ [d])
  | woven_ext g g' l : woven g l -> (forall i, g' i = g i) -> woven g' l.
  (** What of [l] goes to the channel [k] *)
  Definition routed (k : nat) (l : list D) : list D :=
    flat_map (fun d => (if fst (route d) =? k then [d] else []) ++ (if snd (route d) =? k then [d] else [])) l.
  Definition inflight (k : nat) (f : @fwd D) : list D :=
    match f with
    | FSend d a b => (if a && (fst (route d) =? k) then [d] else []) ++ (if b && (snd (route d) =? k) then [d] else [])
    | _ => []
    end.
  Definition dinv (work : nat -> list D) (c : join) : Prop :=
    (forall i, work i = psent (prods c i) ++ pleft (prods c i)) /\
    forall k, exists g, woven g (wrcvd (wstages c k)) /\ forall i, g i ++ inflight k (fwds c i) = routed k (psent (prods c i)).

  Lemma routed_snoc k l d : routed k (l ++ [d]) = routed k l ++ inflight k (FSend d true true).
  Proof. unfold routed. rewrite flat_map_app. cbn. rewrite app_nil_r. reflexivity. Qed.
  Lemma listen_data (p p' : @prod D) e : listen p e = Some p' -> psent p' = psent p /\ pleft p' = pleft p.
  Proof. intros H. destruct (listen_cases _ _ _ H) as [[_ ->]|[_ ->]]; auto. Qed.

  (** A step that changes no certificate *)
  Lemma dinv_same work c c' : dinv work c -> (forall i, psent (prods c' i) = psent (prods c i) /\ pleft (prods c' i) = pleft (prods c i)) ->
    (forall i k, inflight k (fwds c' i) = inflight k (fwds c i)) -> (forall k, wrcvd (wstages c' k) = wrcvd (wstages c k)) -> dinv work c'.
  Proof.
    intros [A B] H1 H2 H3. split.
    - intros i. destruct (H1 i) as [-> ->]. apply A.
    - intros k. destruct (B k) as (g & G1 & G2). exists g. rewrite H3. split; [exact G1|]. intros i. rewrite H2. destruct (H1 i) as [-> _]. apply G2.
  Qed.
  (** A send to the channel [k0] *)
  Lemma dinv_give work c i k0 d f' w' : dinv work c ->
    (forall k, inflight k (fwds c i) = (if k0 =? k then [d] else []) ++ inflight k f') -> wrcvd w' = wrcvd (wstages c k0) ++ [d] ->
    dinv work (with_wstage (with_fwd c i f') k0 w').
  Proof.
    intros [A B] Hf Hw. split; [exact A|]. intros k. destruct (B k) as (g & G1 & G2). cbn [with_wstage with_fwd wstages fwds prods].
    destruct (Nat.eq_dec k k0) as [->|Hk].
    - exists (upd g i (g i ++ [d])). rewrite upd_same, Hw. split; [apply woven_snoc; exact G1|]. intros j. unfold upd. destruct (j =? i) eqn:Ej; [|apply G2].
      apply Nat.eqb_eq in Ej. subst j. specialize (G2 i). rewrite Hf, Nat.eqb_refl in G2. rewrite <- app_assoc. exact G2.
    - exists g. rewrite upd_other by exact Hk. split; [exact G1|]. intros j. unfold upd. destruct (j =? i) eqn:Ej; [|apply G2].
      apply Nat.eqb_eq in Ej. subst j. specialize (G2 i). rewrite Hf in G2. assert (E : (k0 =? k) = false) by (apply Nat.eqb_neq; auto). rewrite E in G2. exact G2.
  Qed.
  Lemma dinv_step work c a c' : dinv work c -> step c a = Some c' -> dinv work c'.
  Proof.
    intros I H. apply step_trans in H as [Hp H].
    destruct H.
    - destruct I as [A B]. split; cbn [with_fwd with_prod prods fwds wstages].
      + intros j. upd_at j; [|apply A]. cbn. rewrite A, H1, <- app_assoc. reflexivity.
      + intros k. destruct (B k) as (g & G1 & G2). exists g. split; [exact G1|]. intros j. unfold upd. destruct (j =? i) eqn:Ej; [|apply G2].
        apply Nat.eqb_eq in Ej. subst j. cbn [psent]. rewrite routed_snoc, <- G2, H2. cbn [inflight]. rewrite app_nil_r. reflexivity.
    - apply (dinv_same work c); try (intros; reflexivity); [exact I|]. cbn. intros j. upd_at j; auto.
    - apply (dinv_same work c); try (intros; reflexivity); [exact I|]. cbn. intros j. upd_at j; auto.
    - apply (dinv_same work c); try (intros; reflexivity); [exact I|]. cbn. intros j. upd_at j; [exact (listen_data _ _ _ H1) | auto].
    - apply (dinv_give work c i (fst (route d)) d); [exact I| |reflexivity]. intros k. rewrite H0. cbn. destruct (fst (route d) =? k); reflexivity.
    - apply (dinv_give work c i (snd (route d)) d); [exact I| |reflexivity]. intros k. rewrite H0. cbn. rewrite app_nil_r.
      destruct a0, (fst (route d) =? k), (snd (route d) =? k); reflexivity.
    - apply (dinv_same work c); try (intros; reflexivity); [exact I | intros; cbn; auto].
    - apply (dinv_same work c); try (intros; reflexivity); [exact I | intros; cbn; auto |]. cbn. intros j k. upd_at j; [rewrite H0; reflexivity | reflexivity].
    - apply (dinv_same work c); try (intros; reflexivity); [exact I | intros; cbn; auto |]. cbn. intros j k. upd_at j; [rewrite H0; reflexivity | reflexivity].
    - apply (dinv_same work c); try (intros; reflexivity); [exact I | intros; cbn; auto].
    - apply (dinv_same work c); try (intros; reflexivity); [exact I | intros; cbn; auto |]. cbn. intros j. upd_at j; reflexivity.
    - apply (dinv_same work c); try (intros; reflexivity); [exact I | intros; cbn; auto |]. cbn. intros j. upd_at j; reflexivity.
    - apply (dinv_same work c); try (intros; reflexivity); [exact I|]. cbn. intros j. upd_at j; [exact (listen_data _ _ _ H3) | auto].
    - apply (dinv_same work c); try (intros; reflexivity); [exact I | intros; cbn; auto].
    - apply (dinv_same work c); try (intros; reflexivity); [exact I | intros; cbn; auto].
    - apply (dinv_same work c); try (intros; reflexivity); [exact I | intros; cbn; auto].
  Qed.
  Lemma dinv_run work l : dinv work (run step (join_start work) l).
  Proof.
    apply run_inv; [exact (dinv_step work)|]. split; [reflexivity|]. intros k. exists (fun _ => []). split; [apply woven_nil | reflexivity].
  Qed.

  (** ** If the stages of the database half fail only at the end of their input *)
  Section Late.
    Hypothesis K_pos : 0 < K.
    Hypothesis late : forall k h, fails k h = None.

    Definition told (c : join) (i : nat) : Prop := ppc (prods c i) = PDone /\ exists e, In e (pfound (prods c i)) /\ blamed c e.
    Record linv (c : join) : Prop := {
      l_wend : forall k, wpc (wstages c k) <> WWork -> wend (wstages c k) = true;
      l_eclosed : eclosed c = true -> closes c = 1;
      l_left : forall i, ppc (prods c i) <> PWork -> pleft (prods c i) = [];
      l_esend : forall k e p i, readers c k = ESend e p -> i < C -> p i = false -> told c i;
      l_past : forall k e, k < K -> readers c k = EWait \/ readers c k = EDone -> wpc (wstages c k) = WDone -> gaveup k (wstages c k) e -> forall i, i < C -> told c i;
      l_own : forall i, ppc (prods c i) <> PWork -> forall e, In e (own i) -> In e (pfound (prods c i));
      l_done : forall i, ppc (prods c i) = PDone -> told c i \/ eclosed c = true }.


    Lemma told_keep c c' i : told c i -> prods c' i = prods c i ->
      (forall k, wpc (wstages c k) <> WWork -> wpc (wstages c' k) <> WWork /\ wrcvd (wstages c' k) = wrcvd (wstages c k) /\ wend (wstages c' k) = wend (wstages c k)) ->
      told c' i.
    Proof. intros [A (e & B1 & B2)] E H. unfold told. rewrite E. split; [exact A|]. exists e. split; [exact B1 | exact (blamed_mono c c' e H B2)]. Qed.
    (** A step of the forwarding of certificates: the channels are open *)
    Lemma linv_start work : linv (join_start work).
    Proof. split; cbn; try discriminate; intros; try contradiction; discriminate. Qed.

    Lemma linv_open c : jinv c -> linv c -> closes c = 0 -> (forall k, wpc (wstages c k) = WWork) /\ (forall k, readers c k = EWait) /\ eclosed c = false.
    Proof.
      intros I L H0. assert (A : forall k, wpc (wstages c k) = WWork).
      { intros k. destruct (wpc (wstages c k)) eqn:E; [reflexivity | |]; exfalso; assert (X : wpc (wstages c k) <> WWork) by (rewrite E; discriminate);
          pose proof (j_wend _ I k (l_wend _ L k X)); lia. }
      split; [exact A|]. split; [intros k; exact (proj2 (j_wwork _ I k (A k)))|]. destruct (eclosed c) eqn:E; [|reflexivity]. pose proof (l_eclosed _ L E). lia.
    Qed.
    (** When only the producing stages and the goroutines in between move *)
    Lemma linv_early c c' : jinv c -> linv c -> closes c = 0 -> closes c' = 0 -> (forall k, wpc (wstages c' k) = WWork) -> readers c' = readers c -> eclosed c' = eclosed c ->
      (forall i, ppc (prods c' i) <> PWork -> pleft (prods c' i) = []) -> (forall i, ppc (prods c' i) <> PWork -> forall e, In e (own i) -> In e (pfound (prods c' i))) ->
      (forall i, ppc (prods c' i) = PDone -> ppc (prods c i) = PDone) -> linv c'.
    Proof.
      intros I L H0 H0' HW HR HE Hl Ho HD. destruct (linv_open c I L H0) as (A & B & E). split.
      - intros k Hk. elim Hk. apply HW.
      - rewrite HE, E. discriminate.
      - exact Hl.
      - intros k e p i Hr. rewrite HR, B in Hr. discriminate.
      - intros k e _ _ Hw. rewrite HW in Hw. discriminate.
      - exact Ho.
      - intros i Hi. exfalso. apply HD in Hi. destruct (l_done _ L i Hi) as [[_ (e & _ & k & _ & X & _)]|X]; [exact (X (A k)) | rewrite E in X; discriminate].
    Qed.

    Lemma linv_step c a c' : jinv c -> linv c -> step c a = Some c' -> linv c'.
    Proof.
      intros I L H. pose proof (jinv_step _ _ _ I H) as I'. apply step_trans in H as [Hp H].
      assert (HF : forall i, i < C -> fwds c i <> FDone -> closes c = 0).
      { intros i Hi Hf. destruct (closes c) eqn:E; [reflexivity|]. elim Hf. apply (j_closed _ I); [lia | exact Hi]. }
      assert (HP : forall i, i < C -> ppc (prods c i) = PWork \/ ppc (prods c i) = PStop -> closes c = 0).
      { intros i Hi Hf. apply (HF i Hi). intros E. destruct (j_fdone _ I i E) as [X|X]; rewrite X in Hf; destruct Hf; discriminate. }
      destruct H.
      - (* send *)
        assert (E0 : closes c = 0) by (apply (HF i H); rewrite H2; discriminate). destruct (linv_open c I L E0) as (A & _).
        apply (linv_early c); try reflexivity; try assumption; cbn [with_fwd with_prod prods]; intros j; upd_at j; cbn;
          solve [intros X; contradiction | discriminate | apply (l_left _ L) | apply (l_own _ L) | auto].
      - (* stop *)
        assert (E0 : closes c = 0) by (apply (HP i H); auto). destruct (linv_open c I L E0) as (A & _).
        apply (linv_early c); try reflexivity; try assumption; cbn [with_prod prods]; intros j; upd_at j; cbn;
          solve [intros _; exact H1 | intros _ e He; exact He | apply (l_left _ L) | apply (l_own _ L) | discriminate | auto].
      - (* closep *)
        assert (E0 : closes c = 0) by (apply (HP i H); auto). destruct (linv_open c I L E0) as (A & _).
        assert (X : ppc (prods c i) <> PWork) by (rewrite H0; discriminate).
        apply (linv_early c); try reflexivity; try assumption; cbn [with_prod prods]; intros j; upd_at j; cbn;
          solve [intros _; exact (l_left _ L i X) | intros _; exact (l_own _ L i X) | apply (l_left _ L) | apply (l_own _ L) | discriminate | auto].
      - (* hear *)
        destruct (listen_cases _ _ _ H1) as [[E ->]|[E ->]].
        + exfalso. pose proof (l_eclosed _ L H0). specialize (HP i H (or_introl E)). lia.
        + assert (X : ppc (prods c i) <> PWork) by (rewrite E; discriminate).
          assert (NT : ~ told c i) by (intros [T _]; rewrite E in T; discriminate).
          assert (ED : forall k, k < K -> readers c k = EDone) by exact (j_eclosed _ I H0).
          destruct L as [L1 L2 L3 L4 L5 L6 L7]. split; cbn [with_prod prods wstages readers closes eclosed]; try assumption.
          * intros j. upd_at j; cbn; [intros _; exact (L3 i X) | apply L3].
          * intros k e p j Hr Hj Hpj. exfalso. apply NT. destruct (Nat.lt_ge_cases k K) as [Hk|Hk]; [rewrite (ED k Hk) in Hr; discriminate|].
            (* readers beyond the last one never move *)
            destruct (j_esend _ I k e p Hr) as [A _]. pose proof (L4 k e p j Hr Hj Hpj) as T. destruct (Nat.eq_dec j i) as [->|]; [exact T|].
            exfalso. destruct T as [T1 (e1 & T2 & k1 & K1 & K2 & K3)].
            assert (W1 : wpc (wstages c k1) = WDone).
            { destruct (wpc (wstages c k1)) eqn:Ew; [contradiction | | reflexivity]. destruct (j_wfail _ I k1 e0 Ew) as [_ Y]. rewrite (ED k1 K1) in Y. discriminate. }
            exact (NT (L5 k1 e1 K1 (or_intror (ED k1 K1)) W1 K3 i H)).
          * intros k e Hk Hr Hw Hg. exfalso. exact (NT (L5 k e Hk Hr Hw Hg i H)).
          * intros j. upd_at j; cbn; [|apply L6]. intros _ e He. apply coalesce_in. left. exact (L6 i X e He).
          * intros j _. right. exact H0.
      - (* first *)
        destruct (linv_open c I L H2) as (A & _).
        apply (linv_early c); try reflexivity; try assumption; cbn [with_wstage with_fwd prods wstages];
          [|exact (l_left _ L) | exact (l_own _ L) | auto]. intros k. upd_at k; [|apply A]. cbn. rewrite late. reflexivity.
      - (* second *)
        destruct (linv_open c I L H2) as (A & _).
        apply (linv_early c); try reflexivity; try assumption; cbn [with_wstage with_fwd prods wstages];
          [|exact (l_left _ L) | exact (l_own _ L) | auto]. intros k. upd_at k; [|apply A]. cbn. rewrite late. reflexivity.
      - (* panic *) destruct (j_panic _ I'). cbn in *. destruct L as [L1 L2 L3 L4 L5 L6 L7]. split; assumption.
      - (* next *) destruct L as [L1 L2 L3 L4 L5 L6 L7]. split; assumption.
      - (* endf *) destruct L as [L1 L2 L3 L4 L5 L6 L7]. split; assumption.
      - (* close *) destruct (linv_open c I L H0) as (_ & _ & E). destruct L as [L1 L2 L3 L4 L5 L6 L7]. split; try assumption. cbn. rewrite E. discriminate.
      - (* end *)
        assert (M : forall k0, wpc (wstages c k0) <> WWork -> wpc (wstages (with_wstage c k (got_end fails_end k (wstages c k))) k0) <> WWork /\
            wrcvd (wstages (with_wstage c k (got_end fails_end k (wstages c k))) k0) = wrcvd (wstages c k0) /\
            wend (wstages (with_wstage c k (got_end fails_end k (wstages c k))) k0) = wend (wstages c k0)).
        { intros k0 Hk. cbn. upd_at k0; [contradiction | auto]. }
        destruct L as [L1 L2 L3 L4 L5 L6 L7]. split; try assumption.
        + intros k0. cbn. upd_at k0; [reflexivity | apply L1].
        + intros k0 e p i Hr Hi Hpi. apply (told_keep c); [exact (L4 k0 e p i Hr Hi Hpi) | reflexivity | exact M].
        + intros k0 e Hk Hr Hw Hg i Hi. apply (told_keep c); [|reflexivity | exact M]. cbn in Hw, Hg, Hr. upd_at k0.
          * exfalso. cbn in Hw. destruct Hg as [[Y _]|[_ Y]]; cbn in Y; [discriminate|]. rewrite Y in Hw. discriminate.
          * exact (L5 k0 e Hk Hr Hw Hg i Hi).
        + intros i Hi. destruct (L7 i Hi) as [T|T]; [left; apply (told_keep c); [exact T | reflexivity | exact M] | right; exact T].
      - (* fail *)
        assert (M : forall k0, wpc (wstages c k0) <> WWork -> wpc (wstages (with_wstage c k (mk_wstage WDone (wrcvd (wstages c k)) (wend (wstages c k)))) k0) <> WWork /\
            wrcvd (wstages (with_wstage c k (mk_wstage WDone (wrcvd (wstages c k)) (wend (wstages c k)))) k0) = wrcvd (wstages c k0) /\
            wend (wstages (with_wstage c k (mk_wstage WDone (wrcvd (wstages c k)) (wend (wstages c k)))) k0) = wend (wstages c k0)).
        { intros k0 Hk. cbn. upd_at k0; [cbn; split; [discriminate | auto] | auto]. }
        destruct L as [L1 L2 L3 L4 L5 L6 L7]. split; try assumption.
        + intros k0. cbn. upd_at k0; [|apply L1]. cbn. intros _. apply L1. rewrite H0. discriminate.
        + intros k0 e0 p i Hr Hi Hpi. apply (told_keep c); [|reflexivity | exact M]. cbn in Hr. upd_at k0; [|exact (L4 k0 e0 p i Hr Hi Hpi)].
          injection Hr as <- <-. apply Nat.ltb_ge in Hpi. lia.
        + intros k0 e0 Hk Hr Hw Hg i Hi. apply (told_keep c); [|reflexivity | exact M]. cbn in Hr, Hw, Hg. upd_at k0; [destruct Hr; discriminate|].
          exact (L5 k0 e0 Hk Hr Hw Hg i Hi).
        + intros i Hi. destruct (L7 i Hi) as [T|T]; [left; apply (told_keep c); [exact T | reflexivity | exact M] | right; exact T].
      - (* give *)
        destruct (listen_cases _ _ _ H3) as [[E ->]|[E ->]].
        + exfalso. destruct (j_esend _ I _ _ _ H1) as [A _]. assert (X : wpc (wstages c k) <> WWork) by (rewrite A; discriminate).
          pose proof (j_wend _ I k (l_wend _ L k X)). specialize (HP i H0 (or_introl E)). lia.
        + assert (X : ppc (prods c i) <> PWork) by (rewrite E; discriminate).
          set (c' := with_reader _ _ _). assert (T : told c' i).
          { unfold told, c'. cbn. rewrite upd_same. cbn. split; [reflexivity|]. exists e. split; [apply coalesce_in; right; left; reflexivity|].
            destruct (j_esend _ I _ _ _ H1) as [A B]. exists k. split; [exact H|]. split; [cbn; rewrite A; discriminate | exact B]. }
          assert (NT : ~ told c i) by (intros [T' _]; rewrite E in T'; discriminate).
          assert (TK : forall j, told c j -> told c' j).
          { intros j Hj. destruct (Nat.eq_dec j i) as [->|Hji]; [exact T|]. apply (told_keep c); [exact Hj | unfold c'; cbn; apply upd_other; exact Hji | unfold c'; cbn; auto]. }
          destruct L as [L1 L2 L3 L4 L5 L6 L7]. split; try assumption.
          * intros j. unfold c'. cbn [with_reader with_prod prods]. upd_at j; cbn; [intros _; exact (L3 i X) | apply L3].
          * intros k0 e0 p j Hr Hj Hpj. unfold c' in Hr. cbn [with_reader readers] in Hr. unfold upd at 1 in Hr. destruct (k0 =? k) eqn:Ek.
            -- injection Hr as <- <-. unfold upd in Hpj. destruct (j =? i) eqn:Ej; [apply Nat.eqb_eq in Ej; subst j; exact T | apply TK; exact (L4 k e pending j H1 Hj Hpj)].
            -- apply TK. exact (L4 k0 e0 p j Hr Hj Hpj).
          * intros k0 e0 Hk Hr Hw Hg j Hj. unfold c' in Hr. cbn [with_reader readers] in Hr. unfold upd in Hr. destruct (k0 =? k) eqn:Ek; [destruct Hr; discriminate|].
            apply TK. exact (L5 k0 e0 Hk Hr Hw Hg j Hj).
          * intros j. unfold c'. cbn [with_reader with_prod prods]. upd_at j; cbn; [|apply L6]. intros _ e0 He. apply coalesce_in. left. exact (L6 i X e0 He).
          * intros j Hj. unfold c' in Hj. cbn [with_reader with_prod prods] in Hj. destruct (Nat.eq_dec j i) as [->|Hji]; [left; exact T|]. rewrite upd_other in Hj by exact Hji.
            destruct (L7 j Hj) as [T'|T']; [left; exact (TK j T') | right; exact T'].
      - (* nexte *)
        assert (TK : forall j, told c j -> told (with_reader c k EWait) j) by (intros j Hj; apply (told_keep c); auto).
        destruct L as [L1 L2 L3 L4 L5 L6 L7]. split; try assumption.
        + intros k0 e0 p i Hr Hi Hpi. cbn in Hr. upd_at k0; [discriminate|]. apply TK. exact (L4 k0 e0 p i Hr Hi Hpi).
        + intros k0 e0 Hk Hr Hw Hg i Hi. apply TK. cbn in Hr, Hw, Hg. upd_at k0; [exact (L4 k e pending i H0 Hi (H1 i Hi)) | exact (L5 k0 e0 Hk Hr Hw Hg i Hi)].
      - (* ende *)
        assert (TK : forall j, told c j -> told (with_reader c k EDone) j) by (intros j Hj; apply (told_keep c); auto).
        destruct L as [L1 L2 L3 L4 L5 L6 L7]. split; try assumption.
        + intros k0 e0 p i Hr Hi Hpi. cbn in Hr. upd_at k0; [discriminate|]. apply TK. exact (L4 k0 e0 p i Hr Hi Hpi).
        + intros k0 e0 Hk Hr Hw Hg i Hi. apply TK. cbn in Hr, Hw, Hg. upd_at k0; [exact (L5 k e0 Hk (or_introl H0) Hw Hg i Hi) | exact (L5 k0 e0 Hk Hr Hw Hg i Hi)].
      - (* closee *)
        assert (TK : forall j, told c j -> told (with_eclosed c) j) by (intros j Hj; apply (told_keep c); auto).
        assert (E1 : closes c = 1).
        { specialize (H 0 K_pos). destruct (closes c) eqn:E; [|pose proof (j_closes _ I); lia]. destruct (linv_open c I L E) as (_ & B & _). rewrite B in H. discriminate. }
        destruct L as [L1 L2 L3 L4 L5 L6 L7]. split; try assumption; [intros _; exact E1|]. intros i Hi. right. reflexivity.
    Qed.
    Definition inv (c : join) : Prop := jinv c /\ linv c.
    Lemma inv_step c a c' : inv c -> step c a = Some c' -> inv c'.
    Proof. intros [I L] H. split; [exact (jinv_step _ _ _ I H) | exact (linv_step _ _ _ I L H)]. Qed.
    Lemma inv_run work l : inv (run step (join_start work) l).
    Proof. apply run_inv; [exact inv_step | split; [apply jinv_start | apply linv_start]]. Qed.

    (** ** It comes to an end *)
    Definition over (c : join) : Prop :=
      closes c = 1 /\ (forall i, i < C -> ppc (prods c i) = PDone /\ fwds c i = FDone) /\ (forall k, k < K -> wpc (wstages c k) = WDone /\ wend (wstages c k) = true).

    Lemma progress c : inv c -> over c \/ exists a, step c a <> None.
    Proof.
      intros [I L]. pose proof (j_panic _ I) as Hp.
      destruct (below_dec K (fun k => match wpc (wstages c k) with WFail _ => false | _ => true end)) as [HW|(k & Hk & E)].
      2:{ right. exists (AFail k). destruct (wpc (wstages c k)) eqn:Ew; try discriminate. destruct (j_wfail _ I k e Ew) as [_ R].
          unfold join_step. rewrite Hp, Ew, R. apply Nat.ltb_lt in Hk. rewrite Hk. discriminate. }
      destruct (below_dec C (fun i => f_done (fwds c i))) as [HF|(i & Hi & E)].
      2:{ right. pose proof Hi as Hi'. apply Nat.ltb_lt in Hi'.
          assert (E0 : closes c = 0). { destruct (closes c) eqn:E0; [reflexivity|]. rewrite (j_closed _ I ltac:(lia) i Hi) in E. discriminate. }
          destruct (linv_open c I L E0) as (A & _). destruct (fwds c i) as [|d a b|] eqn:Ef; [| |discriminate].
          - destruct (ppc (prods c i)) eqn:Ep.
            + destruct (pleft (prods c i)) as [|d rest] eqn:El.
              * exists (AStop i). unfold join_step. rewrite Hp, Ep, El, Hi'. discriminate.
              * exists (ASend i). unfold join_step. rewrite Hp, Ep, El, Ef, Hi'. discriminate.
            + exists (ACloseP i). unfold join_step. rewrite Hp, Ep, Hi'. discriminate.
            + exists (AEndF i). unfold join_step. rewrite Hp, Ef, Ep, Hi'. discriminate.
            + exists (AEndF i). unfold join_step. rewrite Hp, Ef, Ep, Hi'. discriminate.
          - destruct (route_ok d) as [R1 R2]. apply Nat.ltb_lt in R1, R2. destruct a.
            + exists (AFirst i). unfold join_step, give. rewrite Hp, Ef, Hi', R1, E0, A. discriminate.
            + destruct b.
              * exists (ASecond i). unfold join_step, give. rewrite Hp, Ef, Hi', R2, E0, A. discriminate.
              * exists (ANext i). unfold join_step. rewrite Hp, Ef, Hi'. discriminate. }
      destruct (closes c =? 0) eqn:E0.
      { right. exists AClose. unfold join_step. rewrite Hp, E0. rewrite (proj2 (all_below_spec C (fun i => f_done (fwds c i))) HF). discriminate. }
      assert (E1 : closes c = 1) by (apply Nat.eqb_neq in E0; pose proof (j_closes _ I); lia).
      destruct (below_dec K (fun k => match wpc (wstages c k) with WWork => false | _ => true end)) as [HW2|(k & Hk & E)].
      2:{ right. exists (AEnd k). destruct (wpc (wstages c k)) eqn:Ew; try discriminate. unfold join_step. rewrite Hp, Ew, E1. apply Nat.ltb_lt in Hk. rewrite Hk. discriminate. }
      assert (WD : forall k, k < K -> wpc (wstages c k) = WDone). { intros k Hk. specialize (HW k Hk). specialize (HW2 k Hk). destruct (wpc (wstages c k)); [discriminate | discriminate | reflexivity]. }
      assert (FD : forall i, i < C -> fwds c i = FDone). { intros i Hi. specialize (HF i Hi). destruct (fwds c i); [discriminate | discriminate | reflexivity]. }
      destruct (below_dec C (fun i => match ppc (prods c i) with PDone => true | _ => false end)) as [HD|(i & Hi & E)].
      - left. split; [exact E1|]. split.
        + intros i Hi. split; [|exact (FD i Hi)]. specialize (HD i Hi). destruct (ppc (prods c i)); try discriminate. reflexivity.
        + intros k Hk. split; [exact (WD k Hk)|]. apply (l_wend _ L). rewrite (WD k Hk). discriminate.
      - right. pose proof Hi as Hi'. apply Nat.ltb_lt in Hi'. assert (B : ppc (prods c i) = PBrk). { destruct (j_fdone _ I i (FD i Hi)) as [X|X]; [exact X|]. rewrite X in E. discriminate. }
        assert (NT : ~ told c i) by (intros [T _]; rewrite B in T; discriminate).
        destruct (below_dec K (fun k => e_done (readers c k))) as [HE|(k & Hk & Ek)].
        + destruct (eclosed c) eqn:Ee.
          * exists (AHear i). unfold join_step, listen. rewrite Hp, Ee, Hi', B. discriminate.
          * exists ACloseE. unfold join_step. rewrite Hp, Ee. rewrite (proj2 (all_below_spec K (fun k => e_done (readers c k))) HE). discriminate.
        + pose proof Hk as Hk'. apply Nat.ltb_lt in Hk'. destruct (readers c k) as [|e p|] eqn:Er; [| |discriminate].
          * exists (AEndE k). unfold join_step. rewrite Hp, Er, (WD k Hk), Hk'. discriminate.
          * exists (AGive k i). unfold join_step, listen. rewrite Hp, Er, Hk', Hi', B. destruct (p i) eqn:Epi; [discriminate|]. elim NT. exact (l_esend _ L k e p i Er Hi Epi).
    Qed.
    Lemma over_step c a c' : inv c -> over c -> step c a = Some c' -> over c'.
    Proof.
      intros [I L] (O1 & O2 & O3) H. apply step_trans in H as [_ H]. destruct H.
      - destruct (O2 i H) as [X _]. rewrite X in H0. discriminate.
      - destruct (O2 i H) as [X _]. rewrite X in H0. discriminate.
      - destruct (O2 i H) as [X _]. rewrite X in H0. discriminate.
      - destruct (O2 i H) as [X _]. destruct (listen_cases _ _ _ H1) as [[E ->]|[E ->]]; rewrite X in E; discriminate.
      - lia.
      - lia.
      - destruct (O2 i H) as [_ X]. rewrite X in H0. discriminate.
      - destruct (O2 i H) as [_ X]. rewrite X in H0. discriminate.
      - destruct (O2 i H) as [_ X]. rewrite X in H0. discriminate.
      - lia.
      - destruct (O3 k H) as [X _]. rewrite X in H1. discriminate.
      - destruct (O3 k H) as [X _]. rewrite X in H0. discriminate.
      - destruct (O2 i H0) as [X _]. destruct (listen_cases _ _ _ H3) as [[E ->]|[E ->]]; rewrite X in E; discriminate.
      - split; [exact O1|]. split; assumption.
      - split; [exact O1|]. split; assumption.
      - split; [exact O1|]. split; assumption.
    Qed.
    Lemma join_ends work f : fair f -> exists n, over (run step (join_start work) (prefix f n)).
    Proof.
      apply (fair_reaches step inv over rank inv_step); [|exact progress | split; [apply jinv_start | apply linv_start]].
      intros c a c' _ H. exact (step_rank c a c' H).
    Qed.
    Lemma join_stays work l l' : over (run step (join_start work) l) -> over (run step (join_start work) (l ++ l')).
    Proof.
      intros Ho. rewrite run_app. assert (X : inv (run step (run step (join_start work) l) l') /\ over (run step (run step (join_start work) l) l')); [|exact (proj2 X)].
      apply (run_inv step (fun c => inv c /\ over c)); [|split; [apply inv_run | exact Ho]].
      intros c a c' [H1 H2] H. split; [exact (inv_step _ _ _ H1 H) | exact (over_step _ _ _ H1 H2 H)].
    Qed.
    (** At the end: everything delivered; an error of the database half has reached every producing stage *)
    Lemma beyond work l i : C <= i -> psent (prods (run step (join_start work) l) i) = [].
    Proof.
      intros Hi. apply (run_inv step (fun c => psent (prods c i) = [])); [|reflexivity]. intros c a c' Hc H. apply step_trans in H as [_ H].
      destruct H; cbn [with_prod with_fwd with_wstage with_reader with_close with_eclosed with_panic prods]; try rewrite upd_other by lia; exact Hc.
    Qed.
    Lemma join_end work l : let c := run step (join_start work) l in over c ->
      (forall k, k < K -> woven (fun i => if i <? C then routed k (work i) else []) (wrcvd (wstages c k)) /\ fails k (wrcvd (wstages c k)) = None) /\
      (forall k e i, k < K -> fails_end k (wrcvd (wstages c k)) = Some e -> i < C ->
        exists e' k', k' < K /\ fails_end k' (wrcvd (wstages c k')) = Some e' /\ In e' (pfound (prods c i))) /\
      (forall i e, i < C -> In e (own i) -> In e (pfound (prods c i))) /\
      (forall i e, In e (pfound (prods c i)) -> In e (own i) \/ exists k, k < K /\ fails_end k (wrcvd (wstages c k)) = Some e).
    Proof.
      intros c (O1 & O2 & O3). destruct (inv_run work l) as [I L]. destruct (dinv_run work l) as [D1 D2].
      fold c in I, L, D1, D2.
      assert (BL : forall e, blamed c e -> exists k, k < K /\ fails_end k (wrcvd (wstages c k)) = Some e).
      { intros e (k & Hk & _ & [(_ & _ & X)|[_ X]]); [rewrite late in X; discriminate|]. exists k. auto. }
      split; [|split; [|split]].
      - intros k Hk. split; [|apply late]. destruct (D2 k) as (g & G1 & G2). apply woven_ext with (g := g); [exact G1|]. intros i.
        destruct (Nat.lt_ge_cases i C) as [Hi|Hi].
        + pose proof Hi as Hi'. apply Nat.ltb_lt in Hi'. rewrite Hi'. destruct (O2 i Hi) as [P F]. specialize (G2 i). rewrite F in G2. cbn in G2. rewrite app_nil_r in G2. rewrite G2, D1, (l_left _ L i) by (rewrite P; discriminate). rewrite app_nil_r. reflexivity.
        + pose proof Hi as Hi'. apply Nat.ltb_ge in Hi'. rewrite Hi'. specialize (G2 i). pose proof (beyond work l i Hi) as B. fold c in B. rewrite B in G2. cbn in G2. apply app_eq_nil in G2 as [G2 _]. auto.
      - intros k e i Hk He Hi. destruct (O3 k Hk) as [W E]. assert (T : told c i); [|destruct T as [_ (e' & X & Y)]; destruct (BL e' Y) as (k' & A & B); exists e', k'; auto].
        assert (GU : gaveup k (wstages c k) e) by (right; auto). destruct (readers c k) as [|e1 p|] eqn:R.
        + exact (l_past _ L k e Hk (or_introl R) W GU i Hi).
        + destruct (p i) eqn:Ep; [|exact (l_esend _ L k e1 p i R Hi Ep)].
          destruct (O2 i Hi) as [P _]. destruct (l_done _ L i P) as [T|T]; [exact T|]. rewrite (j_eclosed _ I T k Hk) in R. discriminate.
        + exact (l_past _ L k e Hk (or_intror R) W GU i Hi).
      - intros i e Hi He. destruct (O2 i Hi) as [P _]. apply (l_own _ L); [rewrite P; discriminate | exact He].
      - intros i e He. destruct (j_found _ I i e He) as [X|X]; [left; exact X | right; exact (BL e X)].
    Qed.
  End Late.

  (** ** A certificate for a stage that has stopped *)
  (** The goroutine [i] has a certificate still to be sent to the channel [k] *)
  Definition waits (c : join) (i k : nat) : Prop :=
    exists d a b, fwds c i = FSend d a b /\ ((a = true /\ fst (route d) = k) \/ (b = true /\ snd (route d) = k)).
  Definition jam (i k : nat) (c : join) : Prop := i < C /\ jinv c /\ waits c i k /\ wpc (wstages c k) <> WWork.

  Lemma jam_open i k c : jam i k c -> closes c = 0.
  Proof.
    intros (Hi & I & (d & a & b & F & _) & _). destruct (closes c) eqn:E; [reflexivity|]. rewrite (j_closed _ I ltac:(lia) i Hi) in F. discriminate.
  Qed.
  Lemma jam_step i k c a c' : jam i k c -> step c a = Some c' -> jam i k c'.
  Proof.
    intros J H. pose proof (jam_open i k c J) as E0. destruct J as (Hi & I & (d & x & y & F & Hxy) & Hw). pose proof (jinv_step _ _ _ I H) as I'. apply step_trans in H as [_ H].
    split; [exact Hi|]. split; [exact I'|]. clear I'.
    assert (KEEP : forall c1 : join, fwds c1 i = fwds c i -> waits c1 i k). { intros c1 E. exists d, x, y. rewrite E. auto. }
    destruct H; cbn [with_prod with_fwd with_wstage with_reader with_close with_eclosed with_panic fwds wstages].
    - split; [|exact Hw]. apply KEEP. cbn. apply upd_other. intros ->. rewrite F in H2. discriminate.
    - split; [apply KEEP; reflexivity | exact Hw].
    - split; [apply KEEP; reflexivity | exact Hw].
    - split; [apply KEEP; reflexivity | exact Hw].
    - split.
      + destruct (Nat.eq_dec i0 i) as [->|Hn].
        * rewrite F in H0. injection H0 as <- -> <-. exists d, false, y. cbn. rewrite upd_same. split; [reflexivity|]. destruct Hxy as [[_ <-]|Hxy]; [contradiction | right; exact Hxy].
        * apply KEEP. cbn. apply upd_other. auto.
      + unfold upd. destruct (k =? fst (route d0)) eqn:Ek; [|exact Hw]. apply Nat.eqb_eq in Ek. subst k. contradiction.
    - split.
      + destruct (Nat.eq_dec i0 i) as [->|Hn].
        * rewrite F in H0. injection H0 as <- <- ->. exists d, x, false. cbn. rewrite upd_same. split; [reflexivity|]. destruct Hxy as [Hxy|[_ <-]]; [left; exact Hxy | contradiction].
        * apply KEEP. cbn. apply upd_other. auto.
      + unfold upd. destruct (k =? snd (route d0)) eqn:Ek; [|exact Hw]. apply Nat.eqb_eq in Ek. subst k. contradiction.
    - split; [apply KEEP; reflexivity | exact Hw].
    - split; [|exact Hw]. apply KEEP. cbn. apply upd_other. intros ->. rewrite F in H0. injection H0 as <- -> ->. destruct Hxy as [[X _]|[X _]]; discriminate.
    - split; [|exact Hw]. apply KEEP. cbn. apply upd_other. intros ->. rewrite F in H0. discriminate.
    - split; [apply KEEP; reflexivity | exact Hw].
    - lia.
    - split; [apply KEEP; reflexivity|]. unfold upd. destruct (k =? k0); [discriminate | exact Hw].
    - split; [apply KEEP; reflexivity | exact Hw].
    - split; [apply KEEP; reflexivity | exact Hw].
    - split; [apply KEEP; reflexivity | exact Hw].
    - split; [apply KEEP; reflexivity | exact Hw].
  Qed.
  (** Then the channels are never closed, and a stage of the database half that does not fail never ends *)
  Lemma join_jam i k c l : jam i k c -> jam i k (run step c l) /\ closes (run step c l) = 0.
  Proof.
    intros J. assert (X : jam i k (run step c l)) by (apply (run_inv step); [exact (jam_step i k) | exact J]). split; [exact X | exact (jam_open _ _ _ X)].
  Qed.
  Lemma join_jam_others i k c l j : jam i k c -> wpc (wstages c j) = WWork -> (forall h, fails j h = None) -> wpc (wstages (run step c l) j) = WWork.
  Proof.
    intros J Hj Hf. assert (X : jam i k (run step c l) /\ wpc (wstages (run step c l) j) = WWork); [|exact (proj2 X)].
    apply (run_inv step (fun c => jam i k c /\ wpc (wstages c j) = WWork)); [|auto]. clear c l J Hj. intros c a c' [J Hj] H. split; [exact (jam_step _ _ _ _ _ J H)|].
    pose proof (jam_open _ _ _ J). apply step_trans in H as [_ H]. destruct H; cbn [with_prod with_fwd with_wstage with_reader with_close with_eclosed with_panic wstages]; try exact Hj.
    - upd_at j; [|exact Hj]. cbn. rewrite Hf. reflexivity.
    - upd_at j; [|exact Hj]. cbn. rewrite Hf. reflexivity.
    - lia.
    - upd_at j; [|exact Hj]. rewrite Hj in H1. discriminate.
  Qed.
  (** A producing stage that has read the only error waits for ever for a second *)
  Definition deaf (i0 i k : nat) (c : join) : Prop :=
    jam i k c /\ (forall j, j < K -> j <> k -> wpc (wstages c j) = WWork) /\ wpc (wstages c k) = WDone /\ ppc (prods c i0) = PBrk /\
    (forall k' e p, k' < K -> readers c k' = ESend e p -> p i0 = false).
  Lemma join_deaf i0 i k c l : (exists j, j < K /\ j <> k) -> (forall j h, j <> k -> fails j h = None) -> deaf i0 i k c -> deaf i0 i k (run step c l).
  Proof.
    intros (j0 & Hj0 & Hjk) Hf. apply (run_inv step). clear c l. intros c a c' (J & W & WK & P & R) H. pose proof (jam_step _ _ _ _ _ J H) as J'. pose proof (jam_open _ _ _ J) as E0.
    assert (EC : eclosed c = false).
    { destruct (eclosed c) eqn:E; [|reflexivity]. destruct J as (_ & I & _). pose proof (j_eclosed _ I E j0 Hj0) as X. rewrite (proj2 (j_wwork _ I j0 (W j0 Hj0 Hjk))) in X. discriminate. }
    split; [exact J'|]. clear J'. apply step_trans in H as [_ H].
    destruct H; cbn [with_prod with_fwd with_wstage with_reader with_close with_eclosed with_panic prods fwds wstages readers];
      try (split; [exact W|]; split; [exact WK|]; split; [|exact R]); try exact P.
    - unfold upd. destruct (i0 =? i1) eqn:E; [|exact P]. apply Nat.eqb_eq in E. subst i1. rewrite P in H0. discriminate.
    - unfold upd. destruct (i0 =? i1) eqn:E; [|exact P]. apply Nat.eqb_eq in E. subst i1. rewrite P in H0. discriminate.
    - unfold upd. destruct (i0 =? i1) eqn:E; [|exact P]. apply Nat.eqb_eq in E. subst i1. rewrite P in H0. discriminate.
    - rewrite EC in H0. discriminate.
    - split; [|split; [|split; [exact P | exact R]]].
      + intros j Hj Hk. upd_at j; [|exact (W j Hj Hk)]. cbn. rewrite Hf by exact Hk. reflexivity.
      + unfold upd. destruct (k =? fst (route d)) eqn:E; [|exact WK]. apply Nat.eqb_eq in E. subst k. rewrite WK in H3. discriminate.
    - split; [|split; [|split; [exact P | exact R]]].
      + intros j Hj Hk. upd_at j; [|exact (W j Hj Hk)]. cbn. rewrite Hf by exact Hk. reflexivity.
      + unfold upd. destruct (k =? snd (route d)) eqn:E; [|exact WK]. apply Nat.eqb_eq in E. subst k. rewrite WK in H3. discriminate.
    - lia.
    - exfalso. destruct (Nat.eq_dec k0 k) as [->|Hk]; [rewrite WK in H0; discriminate | rewrite (W k0 H Hk) in H0; discriminate].
    - split; [exact W|]. split; [exact WK|]. split.
      + unfold upd. destruct (i0 =? i1) eqn:E; [|exact P]. apply Nat.eqb_eq in E. subst i1. rewrite (R k0 e pending H H1) in H2. discriminate.
      + intros k' e' p'. unfold upd at 1. destruct (k' =? k0) eqn:E; [|apply R]. intros Hk' X. injection X as <- <-. unfold upd. destruct (i0 =? i1); [reflexivity|]. exact (R k0 e pending H H1).
    - split; [exact W|]. split; [exact WK|]. split; [exact P|]. intros k' e' p'. unfold upd. destruct (k' =? k0); [discriminate | apply R].
    - split; [exact W|]. split; [exact WK|]. split; [exact P|]. intros k' e' p'. unfold upd. destruct (k' =? k0); [discriminate | apply R].
  Qed.
End Join.
