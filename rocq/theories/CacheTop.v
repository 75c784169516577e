(** Consequences of the invariant of the presence cache: linearizability, no data race, every operation returns. *)
From Verif Require Import Base BaseLemmas BatchProofs SysModel SysProofs SyncModel CacheSpec CacheProofs.

Lemma hist_ok_split h : hist_ok h -> forall a m b, h = a ++ m :: b -> hist_ok a /\ mark_ok a m.
Proof.
  induction 1 as [|h m Hh IH Hm]; intros a m' b E; [destruct a; discriminate E|].
  destruct b as [|y b] using rev_ind.
  - apply app_inj_tail in E. destruct E as [<- <-]. split; assumption.
  - clear IHb. replace (a ++ m' :: b ++ [y]) with ((a ++ m' :: b) ++ [y]) in E by (rewrite <- app_assoc; reflexivity).
    apply app_inj_tail in E. destruct E as [E _]. exact (IH a m' b E).
Qed.

Lemma in_split_mark (h : list mark) m : In m h -> exists a b, h = a ++ m :: b.
Proof. apply in_split. Qed.

Lemma lin_in h k o r : In (k, (o, r)) (flat_map lin_of h) <-> In (MLin (fst k) (snd k) o r) h.
Proof.
  rewrite in_flat_map. split.
  - intros (m & Hm & Hin). destruct m as [|t' k' o' r'|]; cbn in Hin; try destruct Hin as [].
    + injection H as <- <- <-. exact Hm.
    + destruct H.
  - intros H. exists (MLin (fst k) (snd k) o r). split; [exact H|]. left. destruct k; reflexivity.
Qed.
Lemma vis_ret h t k o r : In (Returned t k o r) (flat_map visible h) <-> In (MRet t k o r) h.
Proof.
  rewrite in_flat_map. split.
  - intros (m & Hm & Hin). destruct m as [t0 k0 o0|t0 k0 o0 r0|t0 k0 o0 r0]; cbn in Hin; [destruct Hin as [Hin|[]]|destruct Hin|destruct Hin as [Hin|[]]];
      try discriminate Hin. injection Hin as <- <- <- <-. exact Hm.
  - intros H. exists (MRet t k o r). split; [exact H | left; reflexivity].
Qed.
Lemma vis_call h t k o : In (Called t k o) (flat_map visible h) <-> In (MCall t k o) h.
Proof.
  rewrite in_flat_map. split.
  - intros (m & Hm & Hin). destruct m as [t0 k0 o0|t0 k0 o0 r0|t0 k0 o0 r0]; cbn in Hin; [destruct Hin as [Hin|[]]|destruct Hin|destruct Hin as [Hin|[]]];
      try discriminate Hin. injection Hin as <- <- <- . exact Hm.
  - intros H. exists (MCall t k o). split; [exact H | left; reflexivity].
Qed.

(** A split of a flattened list comes from a split of the list. *)
Lemma flat_split {A B} (f : A -> list B) : (forall x, length (f x) <= 1) -> forall l a y b, flat_map f l = a ++ y :: b ->
  exists l1 x l2, l = l1 ++ x :: l2 /\ f x = [y] /\ flat_map f l1 = a /\ flat_map f l2 = b.
Proof.
  intros Hf l. induction l as [|x l IH]; intros a y b E; cbn in E; [destruct a; discriminate E|].
  specialize (Hf x) as Hx. destruct (f x) as [|z [|z' fx]] eqn:Ex; cbn in Hx; [| |lia].
  - destruct (IH a y b E) as (l1 & x' & l2 & -> & E1 & E2 & E3). exists (x :: l1), x', l2. cbn. rewrite Ex, E2. repeat split; assumption.
  - cbn in E. destruct a as [|a0 a]; cbn in E; injection E as -> E.
    + exists [], x, l. cbn. repeat split; assumption.
    + destruct (IH a y b E) as (l1 & x' & l2 & -> & E1 & E2 & E3). exists (x :: l1), x', l2. cbn. rewrite Ex, E2. repeat split; assumption.
Qed.
Lemma lin_of_short m : length (lin_of m) <= 1. Proof. destruct m; cbn; lia. Qed.
Lemma visible_short m : length (visible m) <= 1. Proof. destruct m; cbn; lia. Qed.

(** No call occurs twice. *)
Lemma call_once h : hist_ok h -> forall a b c t k o o', h <> a ++ MCall t k o :: b ++ MCall t k o' :: c.
Proof.
  intros Hh a b c t k o o' E.
  replace (a ++ MCall t k o :: b ++ MCall t k o' :: c) with ((a ++ MCall t k o :: b) ++ MCall t k o' :: c) in E by (rewrite <- app_assoc; reflexivity).
  destruct (hist_ok_split h Hh _ _ _ E) as [_ Hm]. cbn in Hm. specialize (Hm (MCall t k o)). cbn in Hm.
  assert (k < k); [|lia]. apply Hm; [|reflexivity]. apply in_or_app. right. left. reflexivity.
Qed.

Lemma hist_linearizable h : hist_ok h -> linearizable (flat_map visible h).
Proof.
  intros Hh. exists (flat_map lin_of h). split; [|split; [|split; [|split]]].
  - intros a b k id r E. destruct (flat_split lin_of lin_of_short h a _ b E) as (h1 & m & h2 & -> & Em & E1 & E2).
    destruct m as [|t' k' o' r'|]; try discriminate Em. cbn in Em. injection Em as <- -> ->.
    destruct (hist_ok_split _ Hh _ _ _ eq_refl) as [_ (_ & _ & Hl)]. rewrite (Hl id eq_refl), <- E1. unfold added. split.
    + intros (t1 & k1 & ids & r1 & Hin & Hid). exists (t1, k1), ids, r1. split; [apply lin_in; exact Hin | exact Hid].
    + intros ([t1 k1] & ids & r1 & Hin & Hid). exists t1, k1, ids, r1. split; [apply (lin_in h1 (t1, k1)); exact Hin | exact Hid].
  - clear - Hh. induction Hh as [|h m Hh IH Hm]; [constructor|]. rewrite flat_map_app, map_app. cbn. rewrite app_nil_r.
    destruct m as [|t k o r|]; cbn; rewrite ?app_nil_r; try exact IH.
    destruct Hm as (_ & Hn & _). apply NoDup_Add with (a := (t, k)) (l := map fst (flat_map lin_of h)).
    + apply (Add_app (t, k) (map fst (flat_map lin_of h)) []) || idtac. rewrite <- (app_nil_r (map fst (flat_map lin_of h))) at 1. apply Add_app.
    + split; [exact IH|]. intros Hin. apply in_map_iff in Hin. destruct Hin as ([k' [o' r']] & E & Hin). cbn in E. subst k'.
      apply lin_in in Hin. exact (Hn o' r' Hin).
  - intros t k o r Hin. apply vis_ret in Hin. apply (lin_in h (t, k)). cbn. destruct (in_split _ _ Hin) as (a & b & E).
    destruct (hist_ok_split _ Hh _ _ _ E) as [_ Hm]. cbn in Hm. rewrite E. apply in_or_app. left. exact Hm.
  - intros t k o r Hin. apply (lin_in h (t, k)) in Hin. cbn in Hin. apply vis_call. destruct (in_split _ _ Hin) as (a & b & E).
    destruct (hist_ok_split _ Hh _ _ _ E) as [_ (Hm & _)]. rewrite E. apply in_or_app. left. exact Hm.
  - intros t k o r t' k' o' r' HA HB (a & b & c & E).
    destruct (flat_split visible visible_short h _ _ _ E) as (h1 & m & h2 & Eh & Em & E1 & E2).
    destruct (flat_split visible visible_short h2 _ _ _ E2) as (h3 & m' & h4 & Eh' & Em' & E3 & E4).
    destruct m as [| |t0 k0 o0 r0]; try discriminate Em. cbn in Em. injection Em as -> -> -> ->.
    destruct m' as [t0 k0 o0| |]; try discriminate Em'. cbn in Em'. injection Em' as -> -> ->. subst h2.
    destruct (hist_ok_split _ Hh _ _ _ Eh) as [_ Hl]. cbn in Hl.
    apply (lin_in h (t', k')) in HB. cbn in HB. rewrite Eh in HB. apply in_app_or in HB.
    assert (HB' : In (MLin t' k' o' r') h4).
    { assert (G : forall g1 g2, h = g1 ++ MLin t' k' o' r' :: g2 -> (exists g3 g4, g2 = g3 ++ MCall t' k' o' :: g4) -> False).
      { intros g1 g2 Eg (g3 & g4 & ->). destruct (hist_ok_split _ Hh _ _ _ Eg) as [_ (Hc & _)]. destruct (in_split _ _ Hc) as (g5 & g6 & ->).
        apply (call_once h Hh g5 (g6 ++ MLin t' k' o' r' :: g3) g4 t' k' o' o'). rewrite Eg. rewrite <- !app_assoc. cbn. reflexivity. }
      destruct HB as [HB|[HB|HB]]; [|discriminate HB|].
      - exfalso. destruct (in_split _ _ HB) as (g1 & g2 & ->). apply (G g1 (g2 ++ MRet t k o r :: h3 ++ MCall t' k' o' :: h4)).
        + rewrite Eh, <- app_assoc. reflexivity.
        + exists (g2 ++ MRet t k o r :: h3), h4. rewrite <- app_assoc. reflexivity.
      - apply in_app_or in HB. destruct HB as [HB|[HB|HB]]; [|discriminate HB|exact HB].
        exfalso. destruct (in_split _ _ HB) as (g1 & g2 & ->). apply (G (h1 ++ MRet t k o r :: g1) (g2 ++ MCall t' k' o' :: h4)).
        + rewrite Eh, <- !app_assoc. cbn. reflexivity.
        + exists g2, h4. reflexivity. }
    destruct (in_split _ _ Hl) as (a1 & a2 & E1'). destruct (in_split _ _ HB') as (b1 & b2 & E2'). rewrite Eh, E1', E2'.
    exists (flat_map lin_of a1), (flat_map lin_of (a2 ++ MRet t k o r :: h3 ++ MCall t' k' o' :: b1)), (flat_map lin_of b2).
    repeat (rewrite flat_map_app; cbn [flat_map lin_of app]). repeat (rewrite <- app_assoc; cbn [app]). reflexivity.
Qed.

Lemma cache_run_inv progs l : cache_inv (run cache_step (cache_start progs) l).
Proof. apply run_inv; [|apply cache_inv_start]. exact cache_step_inv. Qed.

Lemma cache_linearizable progs l : linearizable (events (run cache_step (cache_start progs) l)).
Proof. destruct (cache_run_inv progs l) as (h & owner & HI). rewrite (i_ev _ _ _ HI). apply hist_linearizable. exact (i_hist _ _ _ HI). Qed.

(** *** What a caller sees. *)
Lemma before_in {A} (l : list A) x y : before l x y -> In x l /\ In y l.
Proof.
  intros (a & b & c & ->). split; [apply in_or_app; right; left; reflexivity|].
  apply in_or_app. right. right. apply in_or_app. right. left. reflexivity.
Qed.
Lemma before_or {A} (l : list A) x y : In x l -> In y l -> x <> y -> before l x y \/ before l y x.
Proof.
  intros Hx Hy Hne. destruct (in_split _ _ Hx) as (a & b & ->). apply in_app_or in Hy. destruct Hy as [Hy|[Hy|Hy]]; [|congruence|].
  - right. destruct (in_split _ _ Hy) as (c & d & ->). exists c, d, b. rewrite <- app_assoc. reflexivity.
  - left. destruct (in_split _ _ Hy) as (c & d & ->). exists a, c, d. reflexivity.
Qed.

Lemma lin_fun (lin : list op_done) k v v' : NoDup (map fst lin) -> In (k, v) lin -> In (k, v') lin -> v = v'.
Proof.
  induction lin as [|[k0 v0] lin IH]; intros Hnd H1 H2; [destruct H1|]. cbn in Hnd. apply NoDup_cons_iff in Hnd. destruct Hnd as [Hn Hnd].
  destruct H1 as [E1|H1], H2 as [E2|H2].
  - congruence.
  - injection E1 as -> ->. destruct Hn. apply (in_map fst) in H2. exact H2.
  - injection E2 as -> ->. destruct Hn. apply (in_map fst) in H1. exact H1.
  - exact (IH Hnd H1 H2).
Qed.

Lemma lin_never_forgets ev : linearizable ev -> forall t k ids r t' k' id r',
  before ev (Returned t k (AddIDs ids) r) (Called t' k' (Contains id)) -> In id ids -> In (Returned t' k' (Contains id) r') ev -> r' = true.
Proof.
  intros (lin & Hl & Hnd & Hr & Hc & Ho) t k ids r t' k' id r' Hb Hid Hret.
  pose proof (proj1 (before_in _ _ _ Hb)) as HA. apply Hr in HA. pose proof (Hr _ _ _ _ Hret) as HB.
  destruct (Ho _ _ _ _ _ _ _ _ HA HB Hb) as (a & b & c & E).
  refine (proj2 (Hl (a ++ (t, k, (AddIDs ids, r)) :: b) c (t', k') id r' _) _); [rewrite E, <- app_assoc; reflexivity|].
  exists (t, k), ids, r. split; [|exact Hid]. apply in_or_app. right. left. reflexivity.
Qed.

Lemma before_asym_nodup {A B} (f : A -> B) (l : list A) x y : NoDup (map f l) -> before l x y -> before l y x -> False.
Proof.
  intros Hnd (a & b & c & E) (a' & b' & c' & E').
  assert (G : forall (l : list A) x y a b c a' b' c', NoDup (map f l) -> l = a ++ x :: b ++ y :: c -> l = a' ++ y :: b' ++ x :: c' -> False).
  2:{ exact (G l x y a b c a' b' c' Hnd E E'). }
  clear. intros l. induction l as [|z l IH]; intros x y a b c a' b' c' Hnd E E'; [destruct a; discriminate E|].
  cbn in Hnd. apply NoDup_cons_iff in Hnd. destruct Hnd as [Hn Hnd].
  destruct a as [|a0 a], a' as [|a0' a']; cbn in E, E'; inversion E as [[E1 E2]]; inversion E' as [[E1' E2']]; subst z.
  - apply Hn. rewrite E2', map_app. apply in_or_app. right. left. congruence.
  - apply Hn. rewrite E2', map_app. apply in_or_app. right. right. rewrite map_app. apply in_or_app. right. left. congruence.
  - apply Hn. rewrite E2, map_app. apply in_or_app. right. right. rewrite map_app. apply in_or_app. right. left. congruence.
  - exact (IH x y a b c a' b' c' Hnd E2 E2').
Qed.

Lemma lin_never_invents ev : linearizable ev -> forall t k id,
  In (Returned t k (Contains id) true) ev ->
  exists t' k' ids, In id ids /\ before ev (Called t' k' (AddIDs ids)) (Returned t k (Contains id) true).
Proof.
  intros (lin & Hl & Hnd & Hr & Hc & Ho) t k id Hret. pose proof (Hr _ _ _ _ Hret) as HB. destruct (in_split _ _ HB) as (a & b & E).
  destruct (proj1 (Hl a b (t, k) id true E) eq_refl) as ([t' k'] & ids & r' & Hin & Hid). exists t', k', ids. split; [exact Hid|].
  assert (HA : In ((t', k'), (AddIDs ids, r')) lin) by (rewrite E; apply in_or_app; left; exact Hin).
  destruct (before_or ev (Called t' k' (AddIDs ids)) (Returned t k (Contains id) true) (Hc _ _ _ _ HA) Hret) as [H|H]; [discriminate | exact H|].
  exfalso. apply (before_asym_nodup fst lin _ _ Hnd (Ho _ _ _ _ _ _ _ _ HB HA H)).
  destruct (in_split _ _ Hin) as (c & d & ->). exists c, d, b. rewrite E, <- app_assoc. reflexivity.
Qed.

(** What was seen once is seen by every later call. *)
Lemma lin_no_flicker ev : linearizable ev -> forall t k t' k' id r',
  before ev (Returned t k (Contains id) true) (Called t' k' (Contains id)) -> In (Returned t' k' (Contains id) r') ev -> r' = true.
Proof.
  intros (lin & Hl & Hnd & Hr & Hc & Ho) t k t' k' id r' Hb Hret.
  pose proof (proj1 (before_in _ _ _ Hb)) as HA. apply Hr in HA. pose proof (Hr _ _ _ _ Hret) as HB.
  destruct (Ho _ _ _ _ _ _ _ _ HA HB Hb) as (a & b & c & E).
  destruct (proj1 (Hl a (b ++ (t', k', (Contains id, r')) :: c) (t, k) id true E) eq_refl) as (k1 & ids & r1 & Hin & Hid).
  refine (proj2 (Hl (a ++ (t, k, (Contains id, true)) :: b) c (t', k') id r' _) _); [rewrite E, <- app_assoc; reflexivity|].
  exists k1, ids, r1. split; [|exact Hid]. apply in_or_app. left. exact Hin.
Qed.

(** *** Go maps must not be read while written. *)
Lemma cache_no_race progs l t th t' th' : let c := run cache_step (cache_start progs) l in
  nth_error (threads c) t = Some th -> nth_error (threads c) t' = Some th' ->
  forall id ids x rest, (pc th' = WAdd1 ids (x :: rest) -> pc th <> RRead id true) /\ (pc th' = WAdd0 ids (x :: rest) -> pc th <> RRead id false).
Proof.
  intros c H H' id ids x rest. destruct (cache_run_inv progs l) as (h & owner & HI). fold c in HI.
  assert (G : critical (pc th') = true -> writer_ok c (pc th')).
  { intros Hc. apply (i_own _ _ _ HI t' th' H') in Hc. pose proof (i_wr _ _ _ HI) as W. rewrite Hc in W. destruct W as (th0 & E & W).
    rewrite H' in E. injection E as <-. exact W. }
  split; intros E; rewrite E in G; specialize (G eq_refl); cbn in G.
  - destruct G as (_ & _ & _ & _ & G). exact (G t th id H).
  - destruct G as (_ & _ & _ & _ & G). exact (G t th id H).
Qed.
Lemma cache_one_writer progs l t th t' th' : let c := run cache_step (cache_start progs) l in
  nth_error (threads c) t = Some th -> nth_error (threads c) t' = Some th' -> critical (pc th) = true -> critical (pc th') = true -> t = t'.
Proof.
  intros c H H' Hc Hc'. destruct (cache_run_inv progs l) as (h & owner & HI). fold c in HI.
  apply (i_own _ _ _ HI t th H) in Hc. apply (i_own _ _ _ HI t' th' H') in Hc'. congruence.
Qed.

(** *** Every operation returns. *)
Definition rrank (cr : bool) (p : cache_pc) : nat :=
  match p with
  | RLoad _ => 8
  | RInc _ i => if Bool.eqb i cr then 7 else 11
  | RCheck _ i => if Bool.eqb i cr then 6 else 10
  | RBack _ _ => 9
  | RRead _ _ => 5
  | RDec _ _ _ => 4
  | _ => 0
  end.
Definition wrank (p : cache_pc) : nat :=
  match p with
  | WLock ids => 2 * length ids + 9
  | WShadow ids => 2 * length ids + 8
  | WAdd1 ids rest => length ids + length rest + 7
  | WSwitch ids => length ids + 6
  | WWait ids => length ids + 5
  | WAdd0 _ rest => length rest + 4
  | WBack _ => 3
  | WUnlock _ => 2
  | _ => 0
  end.
Definition oprank (N : nat) (o : cache_op) : nat := match o with Contains _ => 9 | AddIDs ids => N * (2 * length ids + 10) end.
Definition trank (N : nat) (cr : bool) (th : thread) : nat :=
  N * wrank (pc th) + rrank cr (pc th) + list_sum (map (oprank N) (prog th)).
Definition crank (c : cache) : nat :=
  list_sum (map (trank (4 * length (threads c) + 1) (cur c)) (threads c)).

Lemma sum_cons x l : list_sum (x :: l) = x + list_sum l. Proof. reflexivity. Qed.
Lemma sum_set N cr l t x y : nth_error l t = Some x ->
  list_sum (map (trank N cr) (set_nth t y l)) + trank N cr x = list_sum (map (trank N cr) l) + trank N cr y.
Proof.
  revert t. induction l as [|z l IH]; intros [|t] E; try discriminate E; cbn [set_nth map nth_error] in *; rewrite !sum_cons.
  - injection E as ->. lia.
  - specialize (IH t E). lia.
Qed.
Lemma sum_flip N cr cr' l : list_sum (map (trank N cr') l) <= list_sum (map (trank N cr) l) + 4 * length l.
Proof.
  induction l as [|z l IH]; [cbn; lia|]. cbn [map list_sum fold_right length]. fold (list_sum (map (trank N cr') l)). fold (list_sum (map (trank N cr) l)).
  assert (trank N cr' z <= trank N cr z + 4); [|lia]. unfold trank. destruct (pc z); cbn; try lia; destruct idx, cr, cr'; cbn; lia.
Qed.

Lemma crank_local c t th c' th' : nth_error (threads c) t = Some th -> threads c' = set_nth t th' (threads c) -> cur c' = cur c ->
  trank (4 * length (threads c) + 1) (cur c) th' < trank (4 * length (threads c) + 1) (cur c) th -> crank c' < crank c.
Proof.
  intros Hth Et Ec H. unfold crank. rewrite Et, Ec, set_nth_length. pose proof (sum_set (4 * length (threads c) + 1) (cur c) (threads c) t th th' Hth). lia.
Qed.
Lemma crank_flip c t th c' th' : nth_error (threads c) t = Some th -> threads c' = set_nth t th' (threads c) ->
  trank (4 * length (threads c) + 1) (cur c) th' + (4 * length (threads c) + 1) <= trank (4 * length (threads c) + 1) (cur c) th -> crank c' < crank c.
Proof.
  intros Hth Et H. unfold crank. rewrite Et, set_nth_length. set (N := 4 * length (threads c) + 1) in *.
  pose proof (sum_set N (cur c) (threads c) t th th' Hth). pose proof (sum_flip N (cur c) (cur c') (set_nth t th' (threads c))) as F.
  rewrite set_nth_length in F. lia.
Qed.

Lemma cache_step_rank c t c' : cache_step c t = Some c' -> crank c' < crank c.
Proof.
  intros E. unfold cache_step in E. destruct (nth_error (threads c) t) as [th|] eqn:Hth; [|discriminate E].
  set (N := 4 * length (threads c) + 1).
  destruct (pc th) as [|id|id idx|id idx|id idx|id idx|id idx r|ids|ids|ids rest|ids|ids|ids rest|ids|ids] eqn:Epc.
  - destruct (prog th) as [|o pr'] eqn:Epr; [discriminate E|]. injection E as <-.
    eapply (crank_local c t th); [exact Hth | reflexivity | reflexivity|]. fold N. unfold trank. rewrite Epc, Epr. destruct o; cbn [pc prog wrank rrank map oprank list_sum fold_right]; unfold N; nia.
  - injection E as <-. eapply (crank_local c t th); [exact Hth | reflexivity | reflexivity|]. fold N. unfold trank. rewrite Epc. cbn [pc prog wrank rrank]. rewrite eqb_reflx. lia.
  - injection E as <-. eapply (crank_local c t th); [exact Hth | reflexivity | reflexivity|]. fold N. unfold trank. rewrite Epc. cbn [pc prog wrank rrank]. destruct (Bool.eqb idx (cur c)); lia.
  - injection E as <-. eapply (crank_local c t th); [exact Hth | reflexivity | reflexivity|]. fold N. unfold trank. rewrite Epc. cbn [pc prog wrank rrank]. destruct idx, (cur c); cbn; lia.
  - injection E as <-. eapply (crank_local c t th); [exact Hth | reflexivity | reflexivity|]. fold N. unfold trank. rewrite Epc. cbn [pc prog wrank rrank]. lia.
  - injection E as <-. eapply (crank_local c t th); [exact Hth | reflexivity | reflexivity|]. fold N. unfold trank. rewrite Epc. cbn [pc prog wrank rrank]. lia.
  - injection E as <-. eapply (crank_local c t th); [exact Hth | reflexivity | reflexivity|]. fold N. unfold trank. rewrite Epc. cbn [pc prog wrank rrank]. lia.
  - destruct (mu c); [discriminate E|]. injection E as <-. eapply (crank_local c t th); [exact Hth | reflexivity | reflexivity|]. fold N. unfold trank. rewrite Epc. cbn [pc prog wrank rrank]. unfold N. nia.
  - destruct (rc1 c =? 0); [|discriminate E]. injection E as <-. eapply (crank_local c t th); [exact Hth | reflexivity | reflexivity|]. fold N. unfold trank. rewrite Epc. cbn [pc prog wrank rrank]. unfold N. nia.
  - destruct rest as [|x rest]; injection E as <-; (eapply (crank_local c t th); [exact Hth | reflexivity | reflexivity|]); fold N; unfold trank; rewrite Epc; cbn [pc prog wrank rrank length]; unfold N; nia.
  - injection E as <-. eapply (crank_flip c t th); [exact Hth | reflexivity|]. fold N. unfold trank. rewrite Epc. cbn [pc prog wrank rrank]. nia.
  - destruct (rc0 c =? 0); [|discriminate E]. injection E as <-. eapply (crank_local c t th); [exact Hth | reflexivity | reflexivity|]. fold N. unfold trank. rewrite Epc. cbn [pc prog wrank rrank]. unfold N. nia.
  - destruct rest as [|x rest]; injection E as <-; (eapply (crank_local c t th); [exact Hth | reflexivity | reflexivity|]); fold N; unfold trank; rewrite Epc; cbn [pc prog wrank rrank length]; unfold N; nia.
  - injection E as <-. eapply (crank_flip c t th); [exact Hth | reflexivity|]. fold N. unfold trank. rewrite Epc. cbn [pc prog wrank rrank]. nia.
  - injection E as <-. eapply (crank_local c t th); [exact Hth | reflexivity | reflexivity|]. fold N. unfold trank. rewrite Epc. cbn [pc prog wrank rrank]. unfold N. nia.
Qed.

Lemma cache_progress c : cache_inv c -> (all_returned c /\ stuck cache_step c) \/ exists t, cache_step c t <> None.
Proof.
  intros (h & owner & HI).
  assert (HH : forall idx, tcount (holds idx) (threads c) <> 0 -> exists t, cache_step c t <> None).
  { intros idx H. destruct (tcount_pos _ _ H) as (t & th & Ht & Hh). exists t. unfold cache_step. rewrite Ht. destruct (pc th); discriminate. }
  destruct owner as [t|].
  - right. destruct (i_wr _ _ _ HI) as (th & Hth & Hw). destruct (pc th) eqn:Epc; try destruct Hw;
      try (exists t; unfold cache_step; rewrite Hth, Epc; try discriminate; destruct rest; discriminate).
    + destruct (Nat.eqb_spec (rc1 c) 0) as [Er|Er].
      * exists t. unfold cache_step. rewrite Hth, Epc, Er. discriminate.
      * apply (HH true). rewrite <- (i_rc1 _ _ _ HI). exact Er.
    + destruct (Nat.eqb_spec (rc0 c) 0) as [Er|Er].
      * exists t. unfold cache_step. rewrite Hth, Epc, Er. discriminate.
      * apply (HH false). rewrite <- (i_rc0 _ _ _ HI). exact Er.
  - assert (D : forall l, (forall t th, nth_error l t = Some th -> pc th = Idle /\ prog th = []) \/
                          (exists t th, nth_error l t = Some th /\ ~ (pc th = Idle /\ prog th = []))).
    { induction l as [|x l IH]; [left; intros [|t] th E; discriminate E|].
      assert (Dx : (pc x = Idle /\ prog x = []) \/ ~ (pc x = Idle /\ prog x = [])).
      { destruct (pc x), (prog x); auto; right; intros [A B]; discriminate. }
      destruct Dx as [Dx|Dx]; [|right; exists 0, x; split; [reflexivity | exact Dx]].
      destruct IH as [IH|(t & th & E & H)]; [|right; exists (S t), th; split; assumption].
      left. intros [|t] th E; cbn in E; [injection E as <-; exact Dx | exact (IH t th E)]. }
    destruct (D (threads c)) as [H|(t & th & Hth & H)].
    + left. split; [exact H|]. intros t. unfold cache_step. destruct (nth_error (threads c) t) as [th|] eqn:Hth; [|reflexivity].
      destruct (H t th Hth) as [-> ->]. reflexivity.
    + right. pose proof (proj1 (i_own _ _ _ HI t th Hth)) as Ho. pose proof (i_mu _ _ _ HI) as Hm. cbn in Hm.
      exists t. unfold cache_step. rewrite Hth. destruct (pc th) eqn:Epc; try discriminate; try (specialize (Ho eq_refl); discriminate Ho).
      * destruct (prog th); [destruct H; split; reflexivity | discriminate].
      * rewrite Hm. discriminate.
Qed.

Lemma cache_finishes progs f : fair f -> exists n, all_returned (run cache_step (cache_start progs) (prefix f n)).
Proof.
  intros Hf.
  destruct (fair_finishes cache_step cache_inv cache_step_inv (fun c' c => crank c' < crank c) (Wf_nat.well_founded_ltof cache crank)
              (fun s a s' _ E => cache_step_rank s a s' E)) with (f := f) (s := cache_start progs) as [n Hn].
  - intros s Hs. destruct (cache_progress s Hs) as [[_ H]|H]; [left; exact H | right; exact H].
  - apply cache_inv_start.
  - exact Hf.
  - exists n. destruct (cache_progress _ (cache_run_inv progs (prefix f n))) as [[H _]|[t Ht]]; [exact H|]. destruct (Ht (Hn t)).
Qed.

(** Nobody waits in vain: as long as an operation is running, some thread can go on. *)
Lemma cache_no_deadlock progs l : let c := run cache_step (cache_start progs) l in all_returned c \/ exists t, cache_step c t <> None.
Proof. destruct (cache_progress _ (cache_run_inv progs l)) as [[H _]|H]; [left; exact H | right; exact H]. Qed.
