(** Proofs: pruning of expired certificates. *)
From Verif Require Import Base BaseLemmas UtilModel DbModel DbTables DbIngest.

(** What should go: a certificate that expires before the cut, and every certificate below one that goes. *)
Inductive doomed (t : list cert_row) (cut : Z) : bytes -> Prop :=
| doomed_expired c : In c t -> (cr_exp c < cut)%Z -> doomed t cut (cr_id c)
| doomed_below c : In c t -> doomed t cut (cr_parent c) -> doomed t cut (cr_id c).

Inductive below (t : list cert_row) (roots : list bytes) : bytes -> Prop :=
| below_root x : In x roots -> below t roots x
| below_child c : In c t -> below t roots (cr_parent c) -> below t roots (cr_id c).

Lemma has_in l x : has l x = true <-> In x l.
Proof.
  unfold has. rewrite existsb_exists. split.
  - intros (y & Hy & E). apply beqb_eq in E. subst. exact Hy.
  - intros Hx. exists x. split; [exact Hx | apply beqb_refl].
Qed.
Lemma children_in t l x : In x (children t l) <-> exists c, In c t /\ In (cr_parent c) l /\ x = cr_id c.
Proof.
  unfold children. rewrite in_map_iff. split.
  - intros (c & <- & Hc). apply filter_In in Hc. destruct Hc as [Hc He]. exists c. split; [exact Hc|]. split; [|reflexivity]. apply has_in. exact He.
  - intros (c & Hc & Hp & ->). exists c. split; [reflexivity|]. apply filter_In. split; [exact Hc|]. apply has_in. exact Hp.
Qed.
Lemma below_step t l x : below t l x <-> In x l \/ below t (children t l) x.
Proof.
  split.
  - intros Hb. induction Hb as [x Hx|c Hc _ IH]; [left; exact Hx|]. right. destruct IH as [Hp|Hp].
    + apply below_root. apply children_in. eauto.
    + apply below_child; assumption.
  - intros [Hx|Hb]; [apply below_root; exact Hx|]. induction Hb as [x Hx|c Hc _ IH].
    + apply children_in in Hx. destruct Hx as (c & Hc & Hp & ->). apply below_child; [exact Hc | apply below_root; exact Hp].
    + apply below_child; assumption.
Qed.
Lemma below_nil t x : ~ below t [] x.
Proof. intros Hb. induction Hb as [x []|]; assumption. Qed.
Lemma descendants_ok t fuel : forall level r, descendants fuel t level = Some r -> forall x, In x r <-> below t level x.
Proof.
  induction fuel as [|f IH]; intros level r E x.
  - destruct level; [|discriminate]. injection E as <-. split; [intros [] | intros Hb; exfalso; exact (below_nil _ _ Hb)].
  - destruct level as [|a l] eqn:El; [injection E as <-; split; [intros [] | intros Hb; exfalso; exact (below_nil _ _ Hb)]|]. rewrite <- El in *.
    assert (E' : match descendants f t (children t level) with None => None | Some r => Some (level ++ r) end = Some r) by (rewrite El in *; exact E).
    destruct (descendants f t (children t level)) as [r'|] eqn:Ed; [|discriminate]. injection E' as <-.
    rewrite in_app_iff, (IH _ _ Ed), (below_step t level). reflexivity.
Qed.
(** Enough iterations: every certificate has a rank above that of its parent and below the limit. *)
Definition ranked (t : list cert_row) (limit : nat) : Prop :=
  exists rank : bytes -> nat, forall c, In c t -> rank (cr_id c) < limit /\ (In (cr_parent c) (map cr_id t) -> rank (cr_parent c) < rank (cr_id c)).
Lemma descendants_total t limit : ranked t limit -> forall level, incl level (map cr_id t) -> exists r, descendants limit t level = Some r.
Proof.
  intros (rank & Hr).
  assert (Hgen : forall fuel level, incl level (map cr_id t) -> (forall x, In x level -> limit <= rank x + fuel) -> exists r, descendants fuel t level = Some r).
  { induction fuel as [|f IH]; intros level Hi Hl.
    - destruct level as [|x l]; [eexists; reflexivity|]. exfalso. specialize (Hl x (or_introl eq_refl)).
      specialize (Hi x (or_introl eq_refl)). apply in_map_iff in Hi. destruct Hi as (c & <- & Hc). destruct (Hr c Hc). lia.
    - destruct level as [|a l] eqn:El; [eexists; reflexivity|]. rewrite <- El in *.
      destruct (IH (children t level)) as (r & E).
      + intros x Hx. apply children_in in Hx. destruct Hx as (c & Hc & _ & ->). apply in_map. exact Hc.
      + intros x Hx. apply children_in in Hx. destruct Hx as (c & Hc & Hp & ->). destruct (Hr c Hc) as [_ Hlt]. specialize (Hlt (Hi _ Hp)). specialize (Hl _ Hp). lia.
      + exists (level ++ r). rewrite El in *. cbn [descendants]. rewrite E. reflexivity. }
  intros level Hi. apply Hgen; [exact Hi|]. intros. lia.
Qed.
Lemma doomed_is_below t cut x : doomed t cut x <-> below t (map cr_id (filter (fun c => Z.ltb (cr_exp c) cut) t)) x.
Proof.
  split; intros Hd.
  - induction Hd as [c Hc He|c Hc _ IH].
    + apply below_root. apply in_map. apply filter_In. split; [exact Hc|]. apply Z.ltb_lt. exact He.
    + apply below_child; assumption.
  - induction Hd as [x Hx|c Hc _ IH].
    + apply in_map_iff in Hx. destruct Hx as (c & <- & Hc). apply filter_In in Hc. destruct Hc as [Hc He]. apply Z.ltb_lt in He. apply doomed_expired; assumption.
    + apply doomed_below; assumption.
Qed.

Lemma dirty_after l d r : In r (d_dirty (load_dirty l d)) <-> (In r (d_dirty d) /\ ~ In (fst r) l) \/ (snd r = false /\ In (fst r) l).
Proof.
  destruct r as [x b]. cbn [fst snd].
  assert (Hk : map fst (map (fun i => (i, false)) l) = l) by (rewrite map_map; apply map_id). split.
  - intros Hx. apply (replace_from fst beqb beqb_eq fst_key fst_key_ok) in Hx. rewrite Hk in Hx. destruct Hx as [Hx|Hx]; [left; exact Hx | right].
    apply in_map_iff in Hx. destruct Hx as (i & E & Hi). injection E as -> <-. auto.
  - intros [[Hx Hn]|[-> Hi]].
    + apply (replace_keeps fst beqb beqb_eq fst_key fst_key_ok); [exact Hx | rewrite Hk; exact Hn].
    + apply pending_after. right. exact Hi.
Qed.

Section Prune.
  Variable max_depth : nat.
  Definition touches (d : db) (cut : Z) (x : bytes) : Prop := exists id, In (x, id) (d_dc d) /\ doomed (d_certs d) cut id.
  Definition pruned (cut : Z) (d d' : db) : Prop :=
    (forall c, In c (d_certs d') <-> In c (d_certs d) /\ ~ doomed (d_certs d) cut (cr_id c)) /\
    (forall x, In (x, false) (d_dirty d') <-> In (x, false) (d_dirty d) \/ touches d cut x) /\
    (forall x, In (x, true) (d_dirty d') <-> In (x, true) (d_dirty d) /\ ~ touches d cut x) /\
    d_pols d' = d_pols d /\ d_domains d' = d_domains d /\ d_dc d' = d_dc d /\ d_dp d' = d_dp d /\ d_pay d' = d_pay d.
  Lemma stmts_shape cut d s : prune_stmts max_depth cut d = Ok s -> exists gone touched,
    s = [load_dirty touched; delete_certs gone] /\ (forall x, has gone x = true <-> doomed (d_certs d) cut x) /\ (forall x, In x touched <-> touches d cut x).
  Proof.
    unfold prune_stmts. set (t := d_certs d). destruct (descendants max_depth t _) as [gone|] eqn:E; [|discriminate].
    intros Ed. injection Ed as <-.
    assert (Hg : forall x, has gone x = true <-> doomed t cut x) by (intros x; rewrite has_in, (descendants_ok _ _ _ _ E), <- doomed_is_below; reflexivity).
    eexists. eexists. split; [reflexivity|]. split; [exact Hg|]. intros x. rewrite in_map_iff. split.
    - intros ([y id] & Ey & Hr). cbn in Ey. subst y. apply filter_In in Hr. destruct Hr as [Hr Hh]. exists id. split; [exact Hr|]. apply Hg. exact Hh.
    - intros (id & Hr & Hh). exists (x, id). split; [reflexivity|]. apply filter_In. split; [exact Hr|]. apply Hg. exact Hh.
  Qed.
  Lemma delete_in gone d cut c : (forall x, has gone x = true <-> doomed (d_certs d) cut x) ->
    In c (d_certs (delete_certs gone d)) <-> In c (d_certs d) /\ ~ doomed (d_certs d) cut (cr_id c).
  Proof.
    intros Hg. cbn [d_certs set_certs delete_certs]. rewrite filter_In, negb_true_iff. split; intros [H1 H2]; (split; [exact H1|]).
    - intros Hd. apply Hg in Hd. congruence.
    - destruct (has gone (cr_id c)) eqn:Eh; [|reflexivity]. exfalso. apply H2. apply Hg. exact Eh.
  Qed.
  Theorem prune_exact cut d d' : prune_expired max_depth cut d = Ok d' -> pruned cut d d'.
  Proof.
    unfold prune_expired. destruct (prune_stmts max_depth cut d) as [s| |] eqn:E; try discriminate. intros Ed. injection Ed as <-.
    destruct (stmts_shape _ _ _ E) as (gone & touched & -> & Hg & Ht). cbn [run fold_left].
    split; [|split; [|split; [|repeat split]]].
    - intros c. apply (delete_in gone (load_dirty touched d) cut). exact Hg.
    - intros x. unfold delete_certs. change (d_dirty (set_certs ?a ?b)) with (d_dirty b). rewrite pending_after, Ht. reflexivity.
    - intros x. unfold delete_certs. change (d_dirty (set_certs ?a ?b)) with (d_dirty b). rewrite dirty_after. cbn [fst snd]. rewrite Ht.
      split; [intros [?|[? _]]; [assumption | discriminate] | tauto].
  Qed.
  Lemma doomed_incl t t' cut x : incl t' t -> doomed t' cut x -> doomed t cut x.
  Proof. intros Hi Hd. induction Hd as [c Hc He|c Hc _ IH]; [apply doomed_expired | apply doomed_below]; auto. Qed.
  (** Interrupted between its statements and called again. *)
  Theorem prune_crash cut d s k d' : prune_stmts max_depth cut d = Ok s -> prune_expired max_depth cut (run (firstn k s) d) = Ok d' -> pruned cut d d'.
  Proof.
    intros E E'. destruct (stmts_shape _ _ _ E) as (gone & touched & -> & Hg & Ht). apply prune_exact in E'.
    destruct k as [|[|k]]; cbn [firstn run fold_left] in E'; [exact E'| |].
    - destruct E' as (P1 & P2 & P3 & P4). split; [exact P1|]. split; [|split; [|exact P4]].
      + intros x. rewrite P2, pending_after, Ht. unfold touches. cbn [d_dc d_certs load_dirty set_dirty]. tauto.
      + intros x. rewrite P3, dirty_after. cbn [fst snd]. rewrite Ht. unfold touches. cbn [d_dc d_certs load_dirty set_dirty].
        split; [intros [[?|[? _]] ?]; [assumption | discriminate] | tauto].
    - rewrite firstn_nil in E'. cbn [run fold_left] in E'. destruct E' as (P1 & P2 & P3 & P4).
      set (d1 := delete_certs gone (load_dirty touched d)) in *.
      assert (Hd1 : forall c, In c (d_certs d1) <-> In c (d_certs d) /\ ~ doomed (d_certs d) cut (cr_id c)) by (intros c; apply (delete_in gone (load_dirty touched d) cut); exact Hg).
      assert (Hno : forall x, ~ doomed (d_certs d1) cut x).
      { intros x Hx. assert (Hx2 : doomed (d_certs d) cut x) by (eapply doomed_incl; [|exact Hx]; intros c Hc; apply Hd1; exact Hc).
        inversion Hx; subst; apply Hd1 in H; tauto. }
      assert (Hnt : forall x, ~ touches d1 cut x) by (intros x (id & _ & Hx); exact (Hno _ Hx)).
      split; [|split; [|split; [|exact P4]]].
      + intros c. rewrite P1, Hd1. split; [tauto|]. intros [H1 H2]. split; [tauto | apply Hno].
      + intros x. rewrite P2. change (d_dirty d1) with (d_dirty (load_dirty touched d)). rewrite pending_after, Ht. specialize (Hnt x). tauto.
      + intros x. rewrite P3. change (d_dirty d1) with (d_dirty (load_dirty touched d)). rewrite dirty_after. cbn [fst snd]. rewrite Ht. specialize (Hnt x).
        split; [intros [[?|[? _]] ?]; [assumption | discriminate] | tauto].
  Qed.
  Theorem prune_total cut d : ranked (d_certs d) max_depth -> exists d', prune_expired max_depth cut d = Ok d'.
  Proof.
    intros Hr. unfold prune_expired, prune_stmts. destruct (descendants_total _ _ Hr (map cr_id (filter (fun c => Z.ltb (cr_exp c) cut) (d_certs d)))) as (r & ->).
    - intros x Hx. apply in_map_iff in Hx. destruct Hx as (c & <- & Hc). apply filter_In in Hc. apply in_map. tauto.
    - eexists. reflexivity.
  Qed.
End Prune.
