(** Proofs about the leader and the workers of the policy log client. *)
From Coq Require Import Permutation.
From Verif Require Import Base BaseLemmas SysModel SysProofs JoinModel JoinProofs LogPoolModel.

(** Concatenation over the indices below a bound *)
Fixpoint flatb {A} (n : nat) (f : nat -> list A) : list A := match n with O => [] | S m => flatb m f ++ f m end.
Lemma flatb_ext {A} n (f g : nat -> list A) : (forall i, i < n -> f i = g i) -> flatb n f = flatb n g.
Proof. intros H. induction n as [|n IH]; [reflexivity|]. cbn. rewrite IH by (intros; apply H; lia). rewrite (H n) by lia. reflexivity. Qed.
Lemma flatb_upd {A B} (h : A -> list B) n f i x : i < n -> Permutation (h (f i) ++ flatb n (fun j => h (upd f i x j))) (h x ++ flatb n (fun j => h (f j))).
Proof.
  induction n as [|n IH]; [lia|]. intros H. cbn. destruct (Nat.eq_dec i n) as [->|Hn].
  - rewrite upd_same. rewrite (flatb_ext n (fun j => h (upd f n x j)) (fun j => h (f j))); [|intros j Hj; rewrite upd_other by lia; reflexivity].
    rewrite (Permutation_app_comm (flatb n (fun j => h (f j))) (h x)), (Permutation_app_comm (flatb n (fun j => h (f j))) (h (f n))).
    rewrite !app_assoc. apply Permutation_app_tail. apply Permutation_app_comm.
  - rewrite (upd_other f i x n) by lia. rewrite !app_assoc. apply Permutation_app_tail. apply IH. lia.
Qed.
Lemma flatb_in {A} n (f : nat -> list A) x i : i < n -> In x (f i) -> In x (flatb n f).
Proof. induction n as [|n IH]; [lia|]. intros H Hx. cbn. apply in_app_iff. destruct (Nat.eq_dec i n) as [->|Hn]; [right; exact Hx | left; apply IH; [lia | exact Hx]]. Qed.
Lemma flatb_nil {A} n (f : nat -> list A) : (forall i, i < n -> f i = []) -> flatb n f = [].
Proof. induction n as [|n IH]; intros H; [reflexivity|]. cbn. rewrite IH, (H n) by (intros; try apply H; lia). reflexivity. Qed.

Section Pool.
  Context {D R : Type}.
  Variable W : nat.
  Variable data : list D.
  Notation pool := (pool D R).
  Notation step := (@pool_step D R W (length data)).

  Definition held (w : worker D R) : list D := match w with KBusy d => [d] | KHas d _ => [d] | _ => [] end.
  Definition has (w : worker D R) : list (D * R) := match w with KHas d r => [(d, r)] | _ => [] end.
  Definition k_rank (w : worker D R) : nat := match w with KIdle => 1 | KBusy _ => 4 | KHas _ _ => 3 | KEnd => 0 end.
  Definition pool_rank (c : pool) : nat := 4 * length (todo c) + sumb W (fun w => k_rank (workers c w)) + (if died c then 0 else 1).

  Lemma pool_step_rank c a c' : step c a = Some c' -> pool_rank c' < pool_rank c.
  Proof.
    unfold pool_step. destruct (died c) eqn:Ed; [discriminate|]. unfold pool_rank. destruct a; intros H.
    - destruct (leader c); try discriminate. destruct (todo c) eqn:Et; [|discriminate]. injection H as <-. cbn. rewrite Ed. lia.
    - destruct (leader c); try discriminate. destruct (todo c) as [|d rest] eqn:Et; [discriminate|]. destruct (workers c w) eqn:Ew; try discriminate.
      destruct (w <? W) eqn:El; [|discriminate]. injection H as <-. apply Nat.ltb_lt in El. cbn [todo workers died length]. rewrite Ed.
      pose proof (sumb_upd k_rank W (workers c) w (KBusy d) El) as X. rewrite Ew in X. cbn [k_rank] in X. lia.
    - destruct (workers c w) eqn:Ew; try discriminate. destruct (w <? W) eqn:El; [|discriminate]. injection H as <-. apply Nat.ltb_lt in El. cbn [todo workers died]. rewrite Ed.
      pose proof (sumb_upd k_rank W (workers c) w (KHas d r) El) as X. rewrite Ew in X. cbn [k_rank] in X. lia.
    - destruct (leader c).
      + destruct (workers c w) eqn:Ew; try discriminate. destruct (w <? W) eqn:El; [|discriminate]. injection H as <-. apply Nat.ltb_lt in El. cbn [todo workers died]. rewrite Ed.
        pose proof (sumb_upd k_rank W (workers c) w KIdle El) as X. rewrite Ew in X. cbn [k_rank] in X. lia.
      + destruct (workers c w) eqn:Ew; try discriminate. destruct (w <? W) eqn:El; [|discriminate]. injection H as <-. apply Nat.ltb_lt in El. cbn [todo workers died]. rewrite Ed.
        pose proof (sumb_upd k_rank W (workers c) w KIdle El) as X. rewrite Ew in X. cbn [k_rank] in X. lia.
      + destruct (workers c w) eqn:Ew; try discriminate. destruct ((w <? W) && rclosed c); [|discriminate]. injection H as <-. cbn. rewrite Ed. lia.
    - destruct (workers c w) eqn:Ew; try discriminate. destruct (w <? W) eqn:El; [|discriminate]. cbn [andb] in H. destruct (wclosed c); [|discriminate]. injection H as <-.
      apply Nat.ltb_lt in El. cbn [with_worker todo workers died]. rewrite Ed. pose proof (sumb_upd k_rank W (workers c) w KEnd El) as X. rewrite Ew in X. cbn [k_rank] in X. lia.
  Qed.

  Hypothesis some_data : data <> [].

  Record kinv (c : pool) : Prop := {
    k_died : died c = false;
    k_items : Permutation data (todo c ++ flatb W (fun w => held (workers c w)) ++ map fst (collected c));
    k_calls : Permutation (calls c) (flatb W (fun w => has (workers c w)) ++ collected c);
    k_taken : taken c = length (collected c);
    k_lead : match leader c with
             | LLoop => todo c <> [] /\ wclosed c = false /\ rclosed c = false
             | LDrain => todo c = [] /\ wclosed c = true /\ rclosed c = false /\ taken c < length data
             | LRet => todo c = [] /\ wclosed c = true /\ taken c = length data
             end;
    k_end : forall w, workers c w = KEnd -> wclosed c = true }.

  Lemma kinv_start : kinv (pool_start data).
  Proof.
    split; cbn; try reflexivity; [| |auto|discriminate].
    - rewrite flatb_nil by reflexivity. rewrite app_nil_r. reflexivity.
    - rewrite flatb_nil by reflexivity. reflexivity.
  Qed.
  (** As many items as held and collected, once all are handed out *)
  Lemma k_count c : kinv c -> length data = length (todo c) + length (flatb W (fun w => held (workers c w))) + taken c.
  Proof. intros I. pose proof (Permutation_length (k_items c I)) as X. rewrite !app_length, map_length in X. rewrite (k_taken c I). lia. Qed.
  Lemma flat_pos (c : pool) w d r : w < W -> workers c w = KHas d r -> 0 < length (flatb W (fun w => held (workers c w))).
  Proof.
    intros Hw E. assert (X : In d (flatb W (fun w => held (workers c w)))) by (apply (flatb_in _ _ _ w Hw); rewrite E; left; reflexivity).
    destruct (flatb W _); [contradiction | cbn; lia].
  Qed.

  Lemma kinv_step c a c' : kinv c -> step c a = Some c' -> kinv c'.
  Proof.
    intros I H. pose proof (k_count c I) as CNT. pose proof (flat_pos c) as POS. destruct I as [I1 I2 I3 I4 I5 I6]. unfold pool_step in H. rewrite I1 in H. destruct a.
    - destruct (leader c); try discriminate. destruct (todo c) eqn:Et; [|discriminate]. destruct I5 as [X _]. elim X. reflexivity.
    - destruct (leader c) eqn:El; try discriminate. destruct (todo c) as [|d rest] eqn:Et; [discriminate|]. destruct (workers c w) eqn:Ew; try discriminate.
      destruct (w <? W) eqn:Ewl; [|discriminate]. injection H as <-. apply Nat.ltb_lt in Ewl. destruct I5 as (J1 & J2 & J3). split; cbn [died todo workers collected calls taken leader wclosed rclosed]; try assumption; try reflexivity.
      + rewrite I2. pose proof (flatb_upd held W (workers c) w (KBusy d) Ewl) as X. rewrite Ew in X. cbn [held app] in X.
        rewrite X. cbn [app]. apply Permutation_middle.
      + rewrite I3. pose proof (flatb_upd has W (workers c) w (KBusy d) Ewl) as X. rewrite Ew in X. cbn [has app] in X. rewrite X. reflexivity.
      + destruct rest as [|x rest].
        * cbn [length] in CNT. destruct (taken c =? length data) eqn:E; [apply Nat.eqb_eq in E; lia|]. apply Nat.eqb_neq in E. repeat split; auto. lia.
        * split; [discriminate | auto].
      + intros w0 E. unfold upd in E. destruct (w0 =? w); [discriminate|]. specialize (I6 w0 E). congruence.
    - destruct (workers c w) eqn:Ew; try discriminate. destruct (w <? W) eqn:Ewl; [|discriminate]. injection H as <-. apply Nat.ltb_lt in Ewl.
      split; cbn [died todo workers collected calls taken leader wclosed rclosed]; try assumption; try reflexivity.
      + rewrite I2. pose proof (flatb_upd held W (workers c) w (KHas d r) Ewl) as X. rewrite Ew in X. cbn [held] in X. apply Permutation_app_inv_l in X. rewrite X. reflexivity.
      + pose proof (flatb_upd has W (workers c) w (KHas d r) Ewl) as X. rewrite Ew in X. cbn [has app] in X. rewrite X, I3. cbn. rewrite Permutation_app_comm. reflexivity.
      + intros w0 E. unfold upd in E. destruct (w0 =? w); [discriminate | exact (I6 w0 E)].
    - assert (GO : w < W -> forall d r, workers c w = KHas d r ->
                 Permutation data (todo c ++ flatb W (fun j => held (upd (workers c) w KIdle j)) ++ map fst (collected c ++ [(d, r)])) /\
                 Permutation (calls c) (flatb W (fun j => has (upd (workers c) w KIdle j)) ++ collected c ++ [(d, r)]) /\ S (taken c) = length (collected c ++ [(d, r)]) /\ taken c < length data).
      { intros Hw d r Ew. split; [|split; [|split]].
        - rewrite I2. apply Permutation_app_head. pose proof (flatb_upd held W (workers c) w KIdle Hw) as X. rewrite Ew in X. cbn [held app] in X. rewrite <- X, map_app. cbn [map fst].
          rewrite (Permutation_app_comm (map fst (collected c)) [d]). cbn [app]. apply Permutation_middle.
        - rewrite I3. pose proof (flatb_upd has W (workers c) w KIdle Hw) as X. rewrite Ew in X. cbn [has app] in X. rewrite <- X.
          rewrite (Permutation_app_comm (collected c) [(d, r)]). cbn [app]. apply Permutation_middle.
        - rewrite app_length. cbn. lia.
        - specialize (POS w d r Hw Ew). lia. }
      destruct (leader c) eqn:El.
      + destruct (workers c w) as [| |d r|] eqn:Ew; try discriminate. destruct (w <? W) eqn:Ewl; [|discriminate]. injection H as <-. apply Nat.ltb_lt in Ewl. destruct (GO Ewl d r eq_refl) as (G1 & G2 & G3 & G4).
        split; cbn [died todo workers collected calls taken leader wclosed rclosed]; try assumption; try reflexivity.
        intros w0 E. unfold upd in E. destruct (w0 =? w); [discriminate | exact (I6 w0 E)].
      + destruct (workers c w) as [| |d r|] eqn:Ew; try discriminate. destruct (w <? W) eqn:Ewl; [|discriminate]. apply Nat.ltb_lt in Ewl. destruct (GO Ewl d r eq_refl) as (G1 & G2 & G3 & G4).
        destruct I5 as (J1 & J2 & J3 & J4). destruct (S (taken c) =? length data) eqn:E; injection H as <-.
        * apply Nat.eqb_eq in E. split; cbn [died todo workers collected calls taken leader wclosed rclosed]; try assumption; try reflexivity; [repeat split; assumption|].
          intros w0 E0. unfold upd in E0. destruct (w0 =? w); [discriminate | exact (I6 w0 E0)].
        * apply Nat.eqb_neq in E. split; cbn [died todo workers collected calls taken leader wclosed rclosed]; try assumption; try reflexivity; [repeat split; try assumption; lia|].
          intros w0 E0. unfold upd in E0. destruct (w0 =? w); [discriminate | exact (I6 w0 E0)].
      + destruct (workers c w) as [| |d r|] eqn:Ew; try discriminate. destruct (w <? W) eqn:Ewl; [|discriminate]. apply Nat.ltb_lt in Ewl. destruct (GO Ewl d r eq_refl) as (_ & _ & _ & G4). destruct I5 as (_ & _ & J3). lia.
    - destruct (workers c w) eqn:Ew; try discriminate. destruct (w <? W) eqn:Ewl; [|discriminate]. cbn [andb] in H. destruct (wclosed c) eqn:Ec; [|discriminate]. injection H as <-.
      apply Nat.ltb_lt in Ewl. split; cbn [with_worker died todo workers collected calls taken leader wclosed rclosed]; try assumption; try (rewrite Ec; assumption).
      + rewrite I2. pose proof (flatb_upd held W (workers c) w KEnd Ewl) as X. rewrite Ew in X. cbn [held app] in X. rewrite X. reflexivity.
      + rewrite I3. pose proof (flatb_upd has W (workers c) w KEnd Ewl) as X. rewrite Ew in X. cbn [has app] in X. rewrite X. reflexivity.
      + intros w0 _. exact Ec.
  Qed.
  Lemma kinv_run l : kinv (run step (pool_start data) l).
  Proof. apply run_inv; [exact kinv_step | exact kinv_start]. Qed.

  (** ** It comes to an end *)
  Definition pool_over (c : pool) : Prop := leader c = LRet /\ forall w, w < W -> workers c w = KEnd.
  Lemma pool_progress c : 0 < W -> inhabited R -> kinv c -> pool_over c \/ exists a, step c a <> None.
  Proof.
    intros HW [r0] I. pose proof (k_count c I) as CNT. destruct I as [I1 I2 I3 I4 I5 I6].
    destruct (below_dec W (fun w => match workers c w with KBusy _ => false | _ => true end)) as [HB|(w & Hw & E)].
    2:{ right. exists (KAnswer w r0). destruct (workers c w) eqn:Ew; try discriminate. unfold pool_step. rewrite I1, Ew. apply Nat.ltb_lt in Hw. rewrite Hw. discriminate. }
    destruct (below_dec W (fun w => match workers c w with KHas _ _ => false | _ => true end)) as [HH|(w & Hw & E)].
    2:{ right. exists (KResult w). destruct (workers c w) eqn:Ew; try discriminate. unfold pool_step. rewrite I1, Ew. pose proof (flat_pos c w d r Hw Ew). apply Nat.ltb_lt in Hw. rewrite Hw.
        destruct (leader c); try discriminate. destruct I5 as (J1 & _ & J3). rewrite J1 in CNT. cbn in CNT. lia. }
    assert (HN : flatb W (fun w => held (workers c w)) = []).
    { apply flatb_nil. intros w Hw. specialize (HB w Hw). specialize (HH w Hw). destruct (workers c w); try discriminate; reflexivity. }
    rewrite HN in CNT. cbn [length] in CNT. destruct (leader c) eqn:El.
    - right. exists (KSend 0). destruct I5 as (J1 & J2 & _). destruct (todo c) as [|d rest] eqn:Et; [contradiction|]. unfold pool_step. rewrite I1, El, Et.
      specialize (HB 0 HW). specialize (HH 0 HW). apply Nat.ltb_lt in HW. rewrite HW. destruct (workers c 0) eqn:Ew; try discriminate. specialize (I6 0 Ew). congruence.
    - destruct I5 as (J1 & _ & _ & J4). rewrite J1 in CNT. cbn in CNT. lia.
    - destruct (below_dec W (fun w => match workers c w with KEnd => true | _ => false end)) as [HE|(w & Hw & E)].
      + left. split; [exact El|]. intros w Hw. specialize (HE w Hw). destruct (workers c w); try discriminate. reflexivity.
      + right. exists (KQuit w). specialize (HB w Hw). specialize (HH w Hw). destruct I5 as (_ & J2 & _). unfold pool_step. rewrite I1, J2. apply Nat.ltb_lt in Hw. rewrite Hw.
        destruct (workers c w); try discriminate.
  Qed.
  Lemma pool_ends f : 0 < W -> inhabited R -> fair f -> exists n, pool_over (run step (pool_start data) (prefix f n)).
  Proof.
    intros HW HR. apply (fair_reaches step kinv pool_over pool_rank kinv_step); [|intros c; exact (pool_progress c HW HR) | exact kinv_start].
    intros c a c' _ H. exact (pool_step_rank c a c' H).
  Qed.
  (** When the leader returns *)
  Lemma pool_returns l : let c := run step (pool_start data) l in leader c = LRet ->
    Permutation data (map fst (collected c)) /\ Permutation (calls c) (collected c).
  Proof.
    intros c El. pose proof (kinv_run l) as I. fold c in I. pose proof (k_count c I) as CNT. destruct I as [I1 I2 I3 I4 I5 I6]. rewrite El in I5. destruct I5 as (J1 & _ & J3).
    rewrite J1 in CNT. cbn in CNT. assert (E : flatb W (fun w => held (workers c w)) = []) by (destruct (flatb W _); [reflexivity | cbn in CNT; lia]).
    rewrite J1, E in I2. cbn in I2. split; [exact I2|]. rewrite I3, flatb_nil; [reflexivity|]. intros w Hw. destruct (workers c w) as [| |d r|] eqn:Ew; try reflexivity.
    pose proof (flat_pos c w d r Hw Ew) as X. rewrite E in X. cbn in X. lia.
  Qed.
End Pool.

(** ** The results *)
Lemma add_fold c : forall a, fold_left add_one c a =
  mk_add (add_failed a ++ map fst (filter (fun x => match snd x with Some _ => true | None => false end) c))
         (add_errs a ++ flat_map (fun x => match snd x with Some e => [e] | None => [] end) c).
Proof.
  induction c as [|[d [e|]] c IH]; intros [f es]; cbn [fold_left].
  - cbn. rewrite !app_nil_r. reflexivity.
  - rewrite IH. unfold add_one. cbn. rewrite <- !app_assoc. reflexivity.
  - rewrite IH. unfold add_one. cbn. reflexivity.
Qed.
Section Fetch.
  Context {P : Type}.
  Variable leaf_name : bytes -> bytes.
  Notation fetched := (fetched P).

  Fixpoint lookup (n : bytes) (m : list (bytes * P)) : option P := match m with [] => None | (n', p) :: m' => if beqb n n' then Some p else lookup n m' end.
  Lemma lookup_put n n' p m : lookup n (put n' p m) = if beqb n n' then Some p else lookup n m.
  Proof.
    induction m as [|[n1 p1] m IH]; cbn; [reflexivity|]. destruct (beqb n' n1) eqn:E; cbn.
    - apply beqb_eq in E. subst n1. destruct (beqb n n'); reflexivity.
    - destruct (beqb n n1) eqn:E1; [|exact IH]. apply beqb_eq in E1. subst n1. destruct (beqb n n') eqn:E2; [|reflexivity]. apply beqb_eq in E2. subst n'. rewrite beqb_refl in E. discriminate.
  Qed.
  Lemma fetch_fold (c : list (bytes * fetched)) : forall a, let r := fold_left (fetch_one leaf_name) c a in
    f_failed r = f_failed a ++ map fst (filter (fun x => match snd x with FErr _ => true | FProof _ => false end) c) /\
    f_names r = f_names a ++ map (fun x => leaf_name (fst x)) (filter (fun x => match snd x with FErr _ => true | FProof _ => false end) c) /\
    f_errs r = f_errs a ++ flat_map (fun x => match snd x with FErr e => [e] | FProof _ => [] end) c /\
    forall n, match lookup n (pois r) with
              | Some p => lookup n (pois a) = Some p \/ exists d, In (d, FProof p) c /\ leaf_name d = n
              | None => lookup n (pois a) = None /\ forall d p, In (d, FProof p) c -> leaf_name d <> n
              end.
  Proof.
    induction c as [|[d [p|e]] c IH]; intros a; cbn [fold_left].
    - cbn. rewrite !app_nil_r. repeat split; try reflexivity. intros n. destruct (lookup n (pois a)); auto.
    - specialize (IH (fetch_one leaf_name a (d, FProof p))). cbn zeta in IH. destruct IH as (A & B & E & F). cbn zeta. rewrite A, B, E. cbn [fetch_one snd f_failed f_names f_errs filter map flat_map app].
      repeat split; try reflexivity. intros n. specialize (F n). destruct (lookup n (pois _)) as [q|] eqn:El.
      + cbn [fetch_one snd pois fst] in F. rewrite lookup_put in F. destruct F as [F|(d' & F1 & F2)].
        * destruct (beqb n (leaf_name d)) eqn:En; [|left; exact F]. injection F as ->. apply beqb_eq in En. right. exists d. split; [left; reflexivity | auto].
        * right. exists d'. split; [right; exact F1 | exact F2].
      + cbn [fetch_one snd pois fst] in F. rewrite lookup_put in F. destruct (beqb n (leaf_name d)) eqn:En; [destruct F; discriminate|]. destruct F as [F1 F2]. split; [exact F1|].
        intros d' p' [X|X]; [injection X as <- <-; intros <-; rewrite beqb_refl in En; discriminate | exact (F2 d' p' X)].
    - specialize (IH (fetch_one leaf_name a (d, FErr e))). cbn zeta in IH. destruct IH as (A & B & E & F). cbn zeta. rewrite A, B, E.
      cbn [fetch_one snd fst f_failed f_names f_errs pois filter map flat_map app]. rewrite <- !app_assoc. repeat split; try reflexivity.
      intros n. specialize (F n). destruct (lookup n (pois _)) as [q|] eqn:El; cbn [fetch_one snd pois fst] in F.
      + destruct F as [F|(d' & F1 & F2)]; [left; exact F|]. right. exists d'. split; [right; exact F1 | exact F2].
      + destruct F as [F1 F2]. split; [exact F1|]. intros d' p' [X|X]; [discriminate | exact (F2 d' p' X)].
  Qed.

  (** One entry for each name with a proof *)
  Lemma put_keys n (p : P) m x : In x (map fst (put n p m)) <-> x = n \/ In x (map fst m).
  Proof.
    induction m as [|[n' p'] m IH]; cbn; [intuition congruence|]. destruct (beqb n n') eqn:E; cbn.
    - apply beqb_eq in E. subst n'. intuition congruence.
    - rewrite IH. intuition congruence.
  Qed.
  Lemma put_nodup n (p : P) m : NoDup (map fst m) -> NoDup (map fst (put n p m)).
  Proof.
    induction m as [|[n' p'] m IH]; cbn; intros N; [constructor; [intros []|constructor]|]. inversion N as [|? ? N1 N2]; subst. destruct (beqb n n') eqn:E; cbn.
    - apply beqb_eq in E. subst n'. constructor; assumption.
    - constructor; [|exact (IH N2)]. intros X. apply put_keys in X as [->|X]; [rewrite beqb_refl in E; discriminate | contradiction].
  Qed.
  Lemma fetch_names (c : list (bytes * fetched)) : forall a, NoDup (map fst (pois a)) ->
    NoDup (map fst (pois (fold_left (fetch_one leaf_name) c a))) /\
    forall n, In n (map fst (pois (fold_left (fetch_one leaf_name) c a))) <-> In n (map fst (pois a)) \/ exists d p, In (d, FProof p) c /\ leaf_name d = n.
  Proof.
    induction c as [|[d [p|e]] c IH]; intros a N; cbn [fold_left].
    - split; [exact N|]. intros n. split; [auto|]. intros [X|(d & p & [] & _)]. exact X.
    - destruct (IH (fetch_one leaf_name a (d, FProof p))) as [I1 I2]; [apply put_nodup; exact N|]. split; [exact I1|]. intros n. rewrite I2. cbn [fetch_one snd fst pois]. rewrite put_keys. split.
      + intros [[->|X]|(d' & p' & X & Y)]; [right; exists d, p; split; [left; reflexivity|reflexivity] | auto | right; exists d', p'; split; [right; exact X | exact Y]].
      + intros [X|(d' & p' & [X|X] & Y)]; [auto | injection X as <- <-; auto | right; eauto].
    - destruct (IH (fetch_one leaf_name a (d, FErr e)) N) as [I1 I2]. split; [exact I1|]. intros n. rewrite I2. cbn [fetch_one snd fst pois]. split.
      + intros [X|(d' & p' & X & Y)]; [auto|]. right. exists d', p'. split; [right; exact X | exact Y].
      + intros [X|(d' & p' & [X|X] & Y)]; [auto | discriminate | right; eauto].
  Qed.

  (** ** The loop of one query *)
  Notation reply := (reply P).
  (** Answers after which it asks again *)
  Definition again (r : reply) : bool := match r with RNotFound _ | REmpty => true | _ => false end.
  Fixpoint misses (replies : nat -> reply) (n : nat) : nat :=
    match n with O => 0 | S m => misses replies m + match replies m with RNotFound _ => 1 | _ => 0 end end.
  Definition answer_of (r : reply) (e0 : fetched) : fetched := match r with RFail e => FErr e | RProof p => FProof p | RNotFound e => FErr e | REmpty => e0 end.
  Lemma misses_mono replies n m : n <= m -> misses replies n <= misses replies m.
  Proof. induction 1; [lia|]. cbn. lia. Qed.
  Lemma query_walk replies n : (forall m, m < n -> again (replies m) = true) -> misses replies n <= 11 -> forall k fuel, k <= n ->
    query_loop (n - k + fuel) replies (misses replies k) k = query_loop fuel replies (misses replies n) n.
  Proof.
    intros Ha Hm k. remember (n - k) as j eqn:Ej. revert k Ej. induction j as [|j IH]; intros k Ej fuel Hk.
    - replace k with n by lia. reflexivity.
    - cbn [Nat.add query_loop]. pose proof (Ha k ltac:(lia)) as A. pose proof (misses_mono replies (S k) n ltac:(lia)) as M. cbn in M. specialize (IH (S k) ltac:(lia) fuel ltac:(lia)). cbn [misses] in IH.
      destruct (replies k) as [e|e| |p]; try discriminate.
      + destruct (10 <? misses replies k) eqn:E; [apply Nat.ltb_lt in E; lia|]. replace (S (misses replies k)) with (misses replies k + 1) by lia. exact IH.
      + rewrite Nat.add_0_r in IH. exact IH.
  Qed.
  Lemma query_decided replies n fuel r : (forall m, m < n -> again (replies m) = true) -> misses replies n <= 11 ->
    (replies n = RFail r \/ (exists e, r = e /\ replies n = RNotFound e /\ misses replies n = 11)) -> n < fuel -> query_loop fuel replies 0 0 = Some (FErr r, S n).
  Proof.
    intros Ha Hm Hr Hf. pose proof (query_walk replies n Ha Hm 0 (fuel - n) ltac:(lia)) as X. replace (n - 0 + (fuel - n)) with fuel in X by lia. cbn [misses] in X. rewrite X.
    destruct (fuel - n) as [|g] eqn:E; [lia|]. cbn [query_loop]. destruct Hr as [->|(e & -> & -> & E11)]; [reflexivity|]. rewrite E11. reflexivity.
  Qed.
  Lemma query_proof replies n fuel p : (forall m, m < n -> again (replies m) = true) -> misses replies n <= 11 ->
    replies n = RProof p -> n < fuel -> query_loop fuel replies 0 0 = Some (FProof p, S n).
  Proof.
    intros Ha Hm Hr Hf. pose proof (query_walk replies n Ha Hm 0 (fuel - n) ltac:(lia)) as X. replace (n - 0 + (fuel - n)) with fuel in X by lia. cbn [misses] in X. rewrite X.
    destruct (fuel - n) as [|g] eqn:E; [lia|]. cbn [query_loop]. rewrite Hr. reflexivity.
  Qed.
  (** It never returns while the log answers without a proof *)
  Lemma query_empty (replies : nat -> reply) fuel : (forall n, replies n = REmpty) -> forall t n, query_loop fuel replies t n = None.
  Proof. intros H. induction fuel as [|fuel IH]; intros t n; [reflexivity|]. cbn. rewrite H. apply IH. Qed.
End Fetch.

(** ** QueueRPCs *)
Lemma read_rpcs_ok files : (forall f, In f files -> snd f <> None) -> exists l, read_rpcs files = (Some l, []) /\ map (fun f => Some f) l = map snd files.
Proof.
  induction files as [|[n [d|]] files IH]; intros H; cbn.
  - exists []. auto.
  - destruct IH as (l & E & F); [intros f Hf; apply H; right; exact Hf|]. rewrite E. exists (d :: l). split; [reflexivity|]. cbn. rewrite F. reflexivity.
  - elim (H (n, None)); [left; reflexivity | reflexivity].
Qed.
(** The files before the first that cannot be read are gone *)
Lemma read_rpcs_fail pre n rest : (forall f, In f pre -> snd f <> None) -> read_rpcs (pre ++ (n, None) :: rest) = (None, (n, None) :: rest).
Proof.
  induction pre as [|[n1 [d|]] pre IH]; intros H; cbn; [reflexivity| |].
  - rewrite IH; [reflexivity|]. intros f Hf. apply H. right. exact Hf.
  - elim (H (n1, None)); [left; reflexivity | reflexivity].
Qed.
Lemma wait_reaches sizes want k : sizes k = Some want -> (forall j, j < k -> exists s, sizes j = Some s /\ s <> want) -> forall fuel, k < fuel -> wait_size fuel sizes want 0 = Some (Some want).
Proof.
  intros Hk Hj. assert (X : forall j fuel, j <= k -> k - j < fuel -> wait_size fuel sizes want j = Some (Some want)).
  2:{ intros fuel Hf. apply X; lia. }
  intros j. remember (k - j) as r eqn:E. revert j E. induction r as [|r IH]; intros j E fuel Hjk Hf; (destruct fuel as [|fuel]; [lia|]); cbn.
  - replace j with k by lia. rewrite Hk, Z.eqb_refl. reflexivity.
  - destruct (Hj j ltac:(lia)) as (s & -> & Hs). destruct (Z.eqb_spec s want); [contradiction|]. apply IH; lia.
Qed.
Lemma wait_never sizes want fuel : (forall j, exists s, sizes j = Some s /\ s <> want) -> forall n, wait_size fuel sizes want n = None.
Proof.
  intros H. induction fuel as [|fuel IH]; intros n; [reflexivity|]. cbn. destruct (H n) as (s & -> & Hs). destruct (Z.eqb_spec s want); [contradiction | apply IH].
Qed.
