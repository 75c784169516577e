(** Proofs: coalescing of the dirty domains, for every interleaving of the partition workers and every crash. *)
From Coq Require Import Permutation Sorted.
From Verif Require Import Base BaseLemmas UtilModel UtilIds DbModel DbTables DbIngest DbPrune.

(** The certificates a domain should list: those associated with it, and the stored parents of those it lists. *)
Inductive covers (t : list cert_row) (assoc : list (bytes * bytes)) (x : bytes) : bytes -> Prop :=
| covers_own c : In c t -> In (x, cr_id c) assoc -> covers t assoc x (cr_id c)
| covers_parent r c : In r t -> covers t assoc x (cr_id r) -> In c t -> cr_id c = cr_parent r -> covers t assoc x (cr_id c).

Lemma row_dec (a b : cert_row) : {a = b} + {a <> b}.
Proof.
  destruct a as [a1 a2 a3 a4], b as [b1 b2 b3 b4].
  destruct (list_eq_dec byte_eq_dec a1 b1); [|right; congruence]. destruct (list_eq_dec byte_eq_dec a2 b2); [|right; congruence].
  destruct (Z.eq_dec a3 b3); [|right; congruence]. destruct (list_eq_dec byte_eq_dec a4 b4); [left; congruence | right; congruence].
Qed.
Definition unique_ids (t : list cert_row) : Prop := NoDup (map cr_id t).
Lemma row_unique t r r' : unique_ids t -> In r t -> In r' t -> cr_id r = cr_id r' -> r = r'.
Proof.
  intros Hu H1 H2 E. pose proof (in_look cr_id beqb beqb_eq _ _ Hu H1) as L1. pose proof (in_look cr_id beqb beqb_eq _ _ Hu H2) as L2. rewrite E in L1. congruence.
Qed.
Lemma parents_in t level seen c : In c (parents_of t level seen) <-> In c t /\ (exists r, In r level /\ cr_parent r = cr_id c) /\ ~ In (cr_id c) seen.
Proof.
  unfold parents_of. rewrite filter_In, andb_true_iff, existsb_exists, negb_true_iff. split.
  - intros (H1 & (r & Hr & E) & H3). apply beqb_eq in E. split; [exact H1|]. split; [eauto|]. intros Hi. apply has_in in Hi. congruence.
  - intros (H1 & (r & Hr & E) & H3). split; [exact H1|]. split; [exists r; split; [exact Hr | apply beqb_eq; exact E]|].
    destruct (has seen (cr_id c)) eqn:Eh; [|reflexivity]. apply has_in in Eh. tauto.
Qed.
Lemma ancestors_ok t assoc x : unique_ids t -> forall fuel level seen ids,
  ancestors fuel t level seen = Some ids ->
  NoDup seen -> incl level t -> incl (map cr_id level) seen -> (forall i, In i seen -> covers t assoc x i) ->
  (forall c, In c t -> In (x, cr_id c) assoc -> In (cr_id c) seen) ->
  (forall r c, In r t -> In (cr_id r) seen -> ~ In r level -> In c t -> cr_id c = cr_parent r -> In (cr_id c) seen) ->
  NoDup ids /\ forall i, In i ids <-> covers t assoc x i.
Proof.
  intros Hu. induction fuel as [|f IH]; intros level seen ids E Hn Hlt Hls Hc Hb Hcl.
  - destruct level; [|discriminate]. injection E as <-. split; [exact Hn|]. intros i. split; [apply Hc|].
    intros Hi. induction Hi as [c Hc1 Ha|r c Hr _ IHr Hct Ep]; [apply Hb; assumption|]. apply (Hcl r c); auto.
  - destruct level as [|a l] eqn:El.
    + injection E as <-. split; [exact Hn|]. intros i. split; [apply Hc|].
      intros Hi. induction Hi as [c Hc1 Ha|r c Hr _ IHr Hct Ep]; [apply Hb; assumption|]. apply (Hcl r c); auto.
    + rewrite <- El in *. assert (E' : ancestors f t (parents_of t level seen) (seen ++ map cr_id (parents_of t level seen)) = Some ids) by (rewrite El in *; exact E).
      clear E. set (next := parents_of t level seen) in *.
      assert (Hnt : incl next t) by (intros c Hi; apply parents_in in Hi; tauto).
      apply (IH _ _ _ E'); clear IH E'.
      * assert (Hnn : NoDup (map cr_id next)) by (apply nodup_filter; exact Hu).
        clear -Hn Hnn. assert (Hd : forall i, In i seen -> ~ In i (map cr_id next)).
        { intros i Hi Hx. apply in_map_iff in Hx. destruct Hx as (c & <- & Hx). apply parents_in in Hx. tauto. }
        revert Hn Hd Hnn. generalize (map cr_id next). induction seen as [|s seen IH]; intros l Hs Hd Hl; [exact Hl|].
        inversion Hs; subst. cbn. constructor; [|apply IH; auto; intros; apply Hd; right; assumption].
        rewrite in_app_iff. intros [|Hx]; [tauto|]. apply (Hd s); [left; reflexivity | exact Hx].
      * exact Hnt.
      * intros i Hi. apply in_or_app. right. exact Hi.
      * intros i Hi. apply in_app_or in Hi. destruct Hi as [Hi|Hi]; [apply Hc; exact Hi|]. apply in_map_iff in Hi. destruct Hi as (c & <- & Hi).
        apply parents_in in Hi. destruct Hi as (H1 & (r & Hr & E) & _). apply covers_parent with r; [apply Hlt; exact Hr | | exact H1 | symmetry; exact E].
        apply Hc. apply Hls. apply in_map. exact Hr.
      * intros c H1 H2. apply in_or_app. left. apply Hb; assumption.
      * intros r c Hr Hs Hl Hct Ep. apply in_or_app.
        destruct (has seen (cr_id c)) eqn:Eh; [left; apply has_in; exact Eh|].
        assert (Hns : ~ In (cr_id c) seen) by (intros Hx; apply has_in in Hx; congruence).
        apply in_app_or in Hs. destruct Hs as [Hs|Hs].
        -- destruct (in_dec row_dec r level) as [Hil|Hil].
           ++ right. apply in_map. apply parents_in. split; [exact Hct|]. split; [exists r; split; [exact Hil | symmetry; exact Ep] | exact Hns].
           ++ left. apply (Hcl r c); assumption.
        -- exfalso. apply Hl. apply in_map_iff in Hs. destruct Hs as (r' & Er & Hr'). rewrite <- (row_unique t r' r Hu (Hnt _ Hr') Hr Er). exact Hr'.
Qed.
Lemma closure_ok max t assoc x ids : unique_ids t -> closure max t assoc x = Some ids -> NoDup ids /\ forall i, In i ids <-> covers t assoc x i.
Proof.
  intros Hu E. unfold closure in E. set (base := filter _ t) in E.
  assert (Hb : forall c, In c base <-> In c t /\ In (x, cr_id c) assoc).
  { intros c. unfold base. rewrite filter_In, existsb_exists. split.
    - intros [H1 ([a b] & Hr & Er)]. cbn in Er. apply andb_true_iff in Er. destruct Er as [E1 E2]. apply beqb_eq in E1, E2. subst. auto.
    - intros [H1 H2]. split; [exact H1|]. exists (x, cr_id c). split; [exact H2|]. cbn. rewrite !beqb_refl. reflexivity. }
  apply (ancestors_ok t assoc x Hu _ _ _ _ E).
  - apply nodup_filter. exact Hu.
  - intros c Hc. apply Hb in Hc. tauto.
  - apply incl_refl.
  - intros i Hi. apply in_map_iff in Hi. destruct Hi as (c & <- & Hc). apply Hb in Hc. apply covers_own; tauto.
  - intros c H1 H2. apply in_map. apply Hb. auto.
  - intros r c Hr Hs Hl. exfalso. apply Hl. apply in_map_iff in Hs. destruct Hs as (r' & Er & Hr').
    rewrite <- (row_unique t r' r Hu (proj1 (proj1 (Hb r') Hr')) Hr Er). exact Hr'.
Qed.
Lemma ancestors_total t limit rank : (forall c, In c t -> rank (cr_id c) < limit /\ (In (cr_parent c) (map cr_id t) -> rank (cr_parent c) < rank (cr_id c))) ->
  forall fuel level seen, incl level t -> (forall c, In c level -> rank (cr_id c) < fuel) -> exists ids, ancestors fuel t level seen = Some ids.
Proof.
  intros Hr. induction fuel as [|f IH]; intros level seen Hi Hl.
  - destruct level as [|c l]; [eexists; reflexivity|]. specialize (Hl c (or_introl eq_refl)). lia.
  - destruct level as [|a l] eqn:El; [eexists; reflexivity|]. rewrite <- El in *.
    destruct (IH (parents_of t level seen) (seen ++ map cr_id (parents_of t level seen))) as (ids & E).
    + intros c Hc. apply parents_in in Hc. tauto.
    + intros c Hc. apply parents_in in Hc. destruct Hc as (Hc & (r & Hrl & Ep) & _). destruct (Hr r (Hi _ Hrl)) as [_ Hlt].
      specialize (Hl r Hrl). rewrite Ep in Hlt. specialize (Hlt (in_map _ _ _ Hc)). lia.
    + exists ids. rewrite El in *. exact E.
Qed.
Lemma closure_total max t assoc x : ranked t max -> exists ids, closure max t assoc x = Some ids.
Proof.
  intros (rank & Hr). apply (ancestors_total t max rank Hr).
  - intros c Hc. apply filter_In in Hc. tauto.
  - intros c Hc. apply filter_In in Hc. destruct (Hr c (proj1 Hc)). lia.
Qed.

(** A column holds the listed ids in increasing order, glued together, or NULL if there are none. *)
Definition column (t : list cert_row) (assoc : list (bytes * bytes)) (x : bytes) (v : option bytes) : Prop :=
  exists ids, (forall i, In i ids <-> covers t assoc x i) /\ StronglySorted (fun a b => bcmp a b = Lt) ids /\
  v = match ids with [] => None | _ => Some (concat ids) end.
Lemma sorted_strict l : StronglySorted id_le l -> NoDup l -> StronglySorted (fun a b => bcmp a b = Lt) l.
Proof.
  induction l as [|x l IH]; intros Hs Hn; [constructor|]. inversion Hs as [|? ? Hs' Hf]; subst. inversion Hn as [|? ? Hx Hn']; subst.
  constructor; [apply IH; assumption|]. apply Forall_forall. intros y Hy. rewrite Forall_forall in Hf. specialize (Hf y Hy). unfold id_le in Hf.
  destruct (bcmp x y) eqn:E; [apply bcmp_eq in E; subst; tauto | reflexivity | congruence].
Qed.
Lemma glued_column max t assoc x ids : unique_ids t -> closure max t assoc x = Some ids -> column t assoc x (glued ids).
Proof.
  intros Hu E. destruct (closure_ok _ _ _ _ _ Hu E) as [Hn Hi]. exists (sort_ids ids). pose proof (sort_perm ids) as Hp.
  split; [|split].
  - intros i. rewrite <- Hi. split; apply Permutation_in; [exact Hp | symmetry; exact Hp].
  - apply sorted_strict; [apply sort_sorted|]. eapply Permutation_NoDup; [symmetry; exact Hp | exact Hn].
  - unfold glued. destruct ids as [|i ids]; [reflexivity|]. destruct (sort_ids (i :: ids)) eqn:Es; [|reflexivity].
    apply Permutation_nil in Hp. discriminate.
Qed.

Lemma shard_lt x : shard x < partitions.
Proof.
  unfold shard, partitions. destruct x as [|b x]; [lia|].
  assert (Hc : forallb (fun b => N.ltb (N.shiftr (Byte.to_N b) 3) 32) all_bytes = true) by (vm_compute; reflexivity).
  pose proof (byte_sweep _ Hc b) as Hb. apply N.ltb_lt in Hb. lia.
Qed.

Section Coalesce.
  Variable H : bytes -> bytes.
  Variables max_depth size : nat.
  Hypothesis size_pos : 0 < size.

  Definition dl (d : db) (x : bytes) := look fst beqb x (d_dirty d).
  Definition pl (d : db) (x : bytes) := look fst beqb x (d_pay d).
  Definition ml (d : db) (x : bytes) := look fst beqb x (d_domains d).
  (** The primary keys. *)
  Definition keyed (d : db) : Prop :=
    unique_ids (d_certs d) /\ unique_ids (d_pols d) /\ NoDup (map fst (d_dirty d)) /\ NoDup (map fst (d_pay d)) /\ NoDup (map fst (d_domains d)).
  Definition same4 (a b : db) : Prop := d_certs b = d_certs a /\ d_pols b = d_pols a /\ d_dc b = d_dc a /\ d_dp b = d_dp a.
  Definition viewsame (a b : db) (x : bytes) : Prop := dl b x = dl a x /\ pl b x = pl a x /\ ml b x = ml a x.

  Lemma look_one {B} (t : list (bytes * B)) x r : look fst beqb x t = Some r -> fst r = x.
  Proof. intros E. apply (look_in fst beqb beqb_eq) in E. tauto. Qed.
  Lemma dl_in d x b : keyed d -> In (x, b) (d_dirty d) <-> dl d x = Some (x, b).
  Proof.
    intros (_ & _ & Hn & _). split.
    - intros Hi. apply (in_look fst beqb beqb_eq (x, b)); assumption.
    - intros E. apply (look_in fst beqb beqb_eq) in E. tauto.
  Qed.
  Lemma pay_of_same a b x : same4 a b -> pay_of H max_depth b x = pay_of H max_depth a x.
  Proof. intros (E1 & E2 & E3 & E4). unfold pay_of. rewrite E1, E2, E3, E4. reflexivity. Qed.

  (** Effects of the four statements *)
  Lemma replace_view rows d x : keyed d -> NoDup (map fst rows) ->
    let d' := replace_payloads rows d in
    keyed d' /\ same4 d d' /\ dl d' x = dl d x /\ ml d' x = ml d x /\
    (~ In x (map fst rows) -> pl d' x = pl d x) /\ (forall p, In (x, p) rows -> pl d' x = Some (x, p)).
  Proof.
    intros (K1 & K2 & K3 & K4 & K5) Hn d'. split; [|split; [|split; [|split; [|split]]]]; try reflexivity.
    - repeat split; try assumption. apply (replace_nodup fst beqb beqb_eq fst_key fst_key_ok). exact K4.
    - repeat split.
    - intros Hx. unfold pl, d'. cbn [d_pay replace_payloads set_pay]. rewrite (replace_look fst beqb beqb_eq fst_key fst_key_ok).
      replace (look fst beqb x (rev rows)) with (@None (bytes * pay_row)); [reflexivity|]. symmetry. apply (look_none fst beqb beqb_eq).
      rewrite map_rev, <- in_rev. exact Hx.
    - intros p Hp. unfold pl, d'. cbn [d_pay replace_payloads set_pay]. rewrite (replace_look fst beqb beqb_eq fst_key fst_key_ok).
      replace (look fst beqb x (rev rows)) with (Some (x, p)); [reflexivity|]. symmetry.
      apply (in_look fst beqb beqb_eq (x, p) (rev rows)); [rewrite map_rev; apply NoDup_rev; exact Hn | rewrite <- in_rev; exact Hp].
  Qed.
  Lemma delpay_view chunk d x : keyed d ->
    let d' := delete_payloads chunk d in
    keyed d' /\ same4 d d' /\ dl d' x = dl d x /\ ml d' x = ml d x /\
    (~ In x chunk -> pl d' x = pl d x) /\
    (In x chunk -> pl d' x = match pl d x with Some r => if all_null (snd r) then None else Some r | None => None end).
  Proof.
    intros (K1 & K2 & K3 & K4 & K5) d'. split; [|split; [|split; [|split]]]; try reflexivity.
    - repeat split; try assumption. apply nodup_filter. exact K4.
    - repeat split.
    - unfold pl, d'. cbn [d_pay delete_payloads set_pay]. rewrite (look_filter_some fst beqb beqb_eq) by exact K4.
      destruct (look fst beqb x (d_pay d)) as [r|] eqn:E; [|auto]. rewrite (look_one _ _ _ E). split; intros Hx.
      + destruct (has chunk x) eqn:Eh; [apply has_in in Eh; tauto | reflexivity].
      + apply has_in in Hx. rewrite Hx. cbn. destruct (all_null (snd r)); reflexivity.
  Qed.
  Lemma existsb_pay d x : existsb (fun p : bytes * pay_row => beqb (fst p) x) (d_pay d) = match pl d x with Some _ => true | None => false end.
  Proof. unfold pl, look. induction (d_pay d) as [|a l IH]; [reflexivity|]. cbn. destruct (beqb (fst a) x); [reflexivity | exact IH]. Qed.
  Lemma deldom_view chunk d x : keyed d ->
    let d' := delete_domains chunk d in
    keyed d' /\ same4 d d' /\ dl d' x = dl d x /\ pl d' x = pl d x /\
    (~ In x chunk -> ml d' x = ml d x) /\
    (In x chunk -> ml d' x = match pl d x with Some _ => ml d x | None => None end).
  Proof.
    intros (K1 & K2 & K3 & K4 & K5) d'. split; [|split; [|split; [|split]]]; try reflexivity.
    - repeat split; try assumption. apply nodup_filter. exact K5.
    - repeat split.
    - unfold ml, d'. cbn [d_domains delete_domains set_domains]. rewrite (look_filter_some fst beqb beqb_eq) by exact K5.
      destruct (look fst beqb x (d_domains d)) as [r|] eqn:E; [|split; intros; [reflexivity | destruct (pl d x); reflexivity]].
      rewrite (look_one _ _ _ E), existsb_pay. split; intros Hx.
      + destruct (has chunk x) eqn:Eh; [apply has_in in Eh; tauto | reflexivity].
      + apply has_in in Hx. rewrite Hx. cbn. destruct (pl d x); reflexivity.
  Qed.
  Lemma mark_view chunk d x : keyed d ->
    let d' := mark_coalesced chunk d in
    keyed d' /\ same4 d d' /\ pl d' x = pl d x /\ ml d' x = ml d x /\
    (~ In x chunk -> dl d' x = dl d x) /\
    (In x chunk -> dl d' x = match dl d x with Some _ => Some (x, true) | None => None end).
  Proof.
    intros (K1 & K2 & K3 & K4 & K5) d'. set (g := fun r : bytes * bool => if has chunk (fst r) then (fst r, true) else r).
    assert (Hg : forall r, fst (g r) = fst r) by (intros r; unfold g; destruct (has chunk (fst r)); reflexivity).
    assert (Hl : forall t, look fst beqb x (map g t) = option_map g (look fst beqb x t)).
    { intros t. unfold look. induction t as [|r t IH]; [reflexivity|]. cbn. rewrite Hg. destruct (beqb (fst r) x); [reflexivity | exact IH]. }
    split; [|split; [|split; [|split]]]; try reflexivity.
    - repeat split; try assumption. cbn [d_dirty mark_coalesced set_dirty d']. unfold d'. cbn [d_dirty mark_coalesced set_dirty]. rewrite map_map.
      rewrite (map_ext (fun r => fst (g r)) fst Hg). exact K3.
    - repeat split.
    - change (dl d' x) with (look fst beqb x (map g (d_dirty d))). rewrite Hl. fold (dl d x). destruct (dl d x) as [r|] eqn:E; [|auto].
      unfold dl in E. apply look_one in E. cbn [option_map]. unfold g. rewrite E. split; intros Hx.
      + destruct (has chunk x) eqn:Eh; [apply has_in in Eh; tauto | reflexivity].
      + apply has_in in Hx. rewrite Hx. reflexivity.
  Qed.

  Variable d0 : db.
  Hypothesis keyed0 : keyed d0.
  Definition pend0 (x : bytes) : Prop := In (x, false) (d_dirty d0).
  Definition target (x : bytes) (p : pay_row) : Prop := pay_of H max_depth d0 x = Some p.
  Definition fpay (x : bytes) (p : pay_row) := if all_null p then None else Some (x, p).
  Definition fdom (x : bytes) (p : pay_row) := if all_null p then None else ml d0 x.
  Definition fresh (d : db) (x : bytes) : Prop := viewsame d0 d x.
  Definition open_ (d : db) (x : bytes) : Prop := dl d x = Some (x, false) /\ (ml d x = ml d0 x \/ exists p, target x p /\ ml d x = fdom x p).
  Definition done_ (d : db) (x : bytes) : Prop := dl d x = Some (x, true) /\ exists p, target x p /\ pl d x = fpay x p /\ ml d x = fdom x p.
  Definition good (d : db) (x : bytes) : Prop := (pend0 x /\ (open_ d x \/ done_ d x)) \/ (~ pend0 x /\ fresh d x).
  Definition stage (j : nat) (d : db) (x : bytes) : Prop :=
    pend0 x /\ exists p, target x p /\
    match j with
    | 0 => open_ d x
    | 1 => open_ d x /\ pl d x = Some (x, p)
    | 2 => open_ d x /\ pl d x = fpay x p
    | 3 => dl d x = Some (x, false) /\ pl d x = fpay x p /\ ml d x = fdom x p
    | _ => dl d x = Some (x, true) /\ pl d x = fpay x p /\ ml d x = fdom x p
    end.
  Definition stmts (chunk : list bytes) (rows : list (bytes * pay_row)) : list (db -> db) :=
    [replace_payloads rows; delete_payloads chunk; delete_domains chunk; mark_coalesced chunk].
  Definition chunk_ok (p : nat) (chunk : list bytes) (rows : list (bytes * pay_row)) : Prop :=
    chunk <> [] /\ NoDup chunk /\ map fst rows = chunk /\ (forall x y, In (x, y) rows -> target x y) /\ (forall x, In x chunk -> shard x = p).
  Definition winv (p : nat) (d : db) (w : worker) : Prop :=
    match w with
    | Running fs => exists chunk rows j, j <= 4 /\ fs = skipn j (stmts chunk rows) /\ chunk_ok p chunk rows /\
        (forall x, In x chunk -> stage j d x) /\ (forall x, shard x = p -> ~ In x chunk -> good d x)
    | Stopped true => forall x, shard x = p -> good d x /\ dl d x <> Some (x, false)
    | _ => forall x, shard x = p -> good d x
    end.
  Definition inv (s : system) : Prop := keyed (fst s) /\ same4 d0 (fst s) /\ forall p, p < partitions -> winv p (fst s) (snd s p).

  Lemma open_same a b x : viewsame a b x -> open_ a x -> open_ b x.
  Proof. intros (E1 & E2 & E3) [H1 H2]. split; [congruence|]. rewrite E3. exact H2. Qed.
  Lemma good_same a b x : viewsame a b x -> good a x -> good b x.
  Proof.
    intros Hv Hg. pose proof Hv as (E1 & E2 & E3). destruct Hg as [[Hp [Ho|Hd]]|[Hp (F1 & F2 & F3)]].
    - left. split; [exact Hp|]. left. eapply open_same; eassumption.
    - left. split; [exact Hp|]. right. destruct Hd as (D1 & p & D2 & D3 & D4). split; [congruence|]. exists p. split; [exact D2|]. split; congruence.
    - right. split; [exact Hp|]. split; [congruence|]. split; congruence.
  Qed.
  Lemma stage_same j a b x : viewsame a b x -> stage j a x -> stage j b x.
  Proof.
    intros Hv (Hp & p & Ht & Hs). pose proof Hv as (E1 & E2 & E3). split; [exact Hp|]. exists p. split; [exact Ht|].
    destruct j as [|[|[|[|j]]]]; try (eapply open_same; eassumption); destruct Hs as (S1 & S2); try (split; [eapply open_same; eassumption | congruence]);
      destruct S2; (split; [congruence | split; congruence]).
  Qed.
  Lemma stage_good j d x : stage j d x -> good d x.
  Proof.
    intros (Hp & p & Ht & Hs). left. split; [exact Hp|]. destruct j as [|[|[|[|j]]]]; [left; exact Hs | left; apply Hs | left; apply Hs | left | right].
    - destruct Hs as (S1 & S2 & S3). split; [exact S1|]. right. eauto.
    - destruct Hs as (S1 & S2 & S3). split; [exact S1|]. eauto.
  Qed.
  Lemma winv_same p a b w : (forall x, shard x = p -> viewsame a b x) -> winv p a w -> winv p b w.
  Proof.
    intros Hv Hw. destruct w as [|fs|[|]]; cbn in *.
    - intros x Hx. eapply good_same; [apply Hv; exact Hx | apply Hw; exact Hx].
    - destruct Hw as (chunk & rows & j & Hj & Hf & Hc & Hs & Hg). exists chunk, rows, j. split; [exact Hj|]. split; [exact Hf|]. split; [exact Hc|]. split.
      + intros x Hx. eapply stage_same; [apply Hv; apply Hc; exact Hx | apply Hs; exact Hx].
      + intros x Hx Hn. eapply good_same; [apply Hv; exact Hx | apply Hg; assumption].
    - intros x Hx. destruct (Hw x Hx) as [W1 W2]. split; [eapply good_same; [apply Hv; exact Hx | exact W1]|]. destruct (Hv x Hx) as (E & _). congruence.
    - intros x Hx. eapply good_same; [apply Hv; exact Hx | apply Hw; exact Hx].
  Qed.
  Lemma winv_good p d w : winv p d w -> forall x, shard x = p -> good d x.
  Proof.
    intros Hw x Hx. destruct w as [|fs|[|]]; cbn in Hw; try (apply Hw; exact Hx). destruct Hw as (chunk & rows & j & Hj & Hf & Hc & Hs & Hg).
    destruct (in_dec (list_eq_dec byte_eq_dec) x chunk) as [Hi|Hi]; [eapply stage_good; apply Hs; exact Hi | apply Hg; assumption].
  Qed.

  Lemma row_of (rows : list (bytes * pay_row)) (chunk : list bytes) (x : bytes) : map fst rows = chunk -> In x chunk -> exists y : pay_row, In (x, y) rows.
  Proof. intros <- Hx. apply in_map_iff in Hx. destruct Hx as ([a y] & Ea & Hi). cbn in Ea. subst. eauto. Qed.
  Lemma nth_stmt j chunk rows f fs : f :: fs = skipn j (stmts chunk rows) -> j < 4 /\ fs = skipn (S j) (stmts chunk rows) /\ nth_error (stmts chunk rows) j = Some f.
  Proof. intros E. destruct j as [|[|[|[|j]]]]; cbn in E; try (injection E as -> ->; split; [lia | split; reflexivity]). rewrite skipn_nil in E. discriminate. Qed.

  (** One statement moves its chunk by one stage and touches no other domain. *)
  Lemma stmt_step p d chunk rows j f : keyed d -> same4 d0 d -> chunk_ok p chunk rows -> nth_error (stmts chunk rows) j = Some f ->
    (forall x, In x chunk -> stage j d x) ->
    keyed (f d) /\ same4 d (f d) /\ (forall x, ~ In x chunk -> viewsame d (f d) x) /\ (forall x, In x chunk -> stage (S j) (f d) x).
  Proof.
    intros Hk H4 (C1 & C2 & C3 & C4 & C5) Hf Hs.
    destruct j as [|[|[|[|j]]]]; cbn in Hf; [| | | |destruct j; discriminate]; injection Hf as <-.
    - assert (Hnr : NoDup (map fst rows)) by (rewrite C3; exact C2).
      destruct (replace_view rows d [] Hk Hnr) as (V1 & V2 & _). split; [exact V1|]. split; [exact V2|]. split; intros x Hx.
      + destruct (replace_view rows d x Hk Hnr) as (_ & _ & V3 & V4 & V5 & _). rewrite C3 in V5. split; [exact V3|]. split; [apply V5; exact Hx | exact V4].
      + destruct (replace_view rows d x Hk Hnr) as (_ & _ & V3 & V4 & _ & V6). destruct (row_of rows chunk x C3 Hx) as (y & Hy).
        destruct (Hs x Hx) as (Hp & p' & Ht & [O1 O2]). split; [exact Hp|]. exists y. split; [apply C4; exact Hy|]. split; [|apply V6; exact Hy].
        split; [congruence|]. rewrite V4. exact O2.
    - destruct (delpay_view chunk d [] Hk) as (V1 & V2 & _). split; [exact V1|]. split; [exact V2|]. split; intros x Hx.
      + destruct (delpay_view chunk d x Hk) as (_ & _ & V3 & V4 & V5 & _). split; [exact V3|]. split; [apply V5; exact Hx | exact V4].
      + destruct (delpay_view chunk d x Hk) as (_ & _ & V3 & V4 & _ & V6). destruct (Hs x Hx) as (Hp & y & Ht & ([O1 O2] & O3)).
        split; [exact Hp|]. exists y. split; [exact Ht|]. split; [split; [congruence | rewrite V4; exact O2]|]. rewrite (V6 Hx), O3. reflexivity.
    - destruct (deldom_view chunk d [] Hk) as (V1 & V2 & _). split; [exact V1|]. split; [exact V2|]. split; intros x Hx.
      + destruct (deldom_view chunk d x Hk) as (_ & _ & V3 & V4 & V5 & _). split; [exact V3|]. split; [exact V4 | apply V5; exact Hx].
      + destruct (deldom_view chunk d x Hk) as (_ & _ & V3 & V4 & _ & V6). destruct (Hs x Hx) as (Hp & y & Ht & ([O1 O2] & O3)).
        split; [exact Hp|]. exists y. split; [exact Ht|]. split; [congruence|]. split; [congruence|]. rewrite (V6 Hx), O3.
        unfold fpay, fdom in *. destruct (all_null y) eqn:En; [reflexivity|]. destruct O2 as [O2|(y' & Ht' & O2)]; [exact O2|].
        unfold target in Ht, Ht'. rewrite Ht in Ht'. injection Ht' as <-. rewrite En in O2. exact O2.
    - destruct (mark_view chunk d [] Hk) as (V1 & V2 & _). split; [exact V1|]. split; [exact V2|]. split; intros x Hx.
      + destruct (mark_view chunk d x Hk) as (_ & _ & V3 & V4 & V5 & _). split; [apply V5; exact Hx|]. split; [exact V3 | exact V4].
      + destruct (mark_view chunk d x Hk) as (_ & _ & V3 & V4 & _ & V6). destruct (Hs x Hx) as (Hp & y & Ht & (O1 & O2 & O3)).
        split; [exact Hp|]. exists y. split; [exact Ht|]. split; [rewrite (V6 Hx), O1; reflexivity|]. split; congruence.
  Qed.

  Lemma pending_in p d x : In x (pending p d) <-> In (x, false) (d_dirty d) /\ shard x = p.
  Proof.
    unfold pending. assert (Hp : forall l, In x (sort_ids l) <-> In x l) by (intros l; split; apply Permutation_in; [|symmetry]; apply sort_perm).
    rewrite Hp, in_map_iff. split.
    - intros ([y b] & Ey & Hi). cbn in Ey. subst y. apply filter_In in Hi. cbn in Hi. destruct Hi as [Hi Hb]. apply andb_true_iff in Hb. destruct Hb as [H1 H2].
      apply Nat.eqb_eq in H1. destruct b; [discriminate|]. auto.
    - intros [Hi Hs]. exists (x, false). split; [reflexivity|]. apply filter_In. split; [exact Hi|]. cbn. rewrite Hs, Nat.eqb_refl. reflexivity.
  Qed.
  Lemma pending_nodup p d : keyed d -> NoDup (pending p d).
  Proof.
    intros (_ & _ & Hn & _). unfold pending. eapply Permutation_NoDup; [symmetry; apply sort_perm|]. apply nodup_filter. exact Hn.
  Qed.
  Lemma pay_rows_ok d chunk : forall rows, pay_rows H max_depth d chunk = Some rows -> map fst rows = chunk /\ forall x y, In (x, y) rows -> pay_of H max_depth d x = Some y.
  Proof.
    induction chunk as [|x chunk IH]; intros rows E; cbn in E; [injection E as <-; split; [reflexivity | intros ? ? []]|].
    destruct (pay_of H max_depth d x) as [p|] eqn:Ep; [|discriminate]. destruct (pay_rows H max_depth d chunk) as [r|] eqn:Er; [|discriminate].
    injection E as <-. destruct (IH r eq_refl) as [I1 I2]. split; [cbn; congruence|]. intros y q [Ey|Hi]; [congruence | apply I2; exact Hi].
  Qed.
  Lemma firstn_nodup {A} n : forall l : list A, NoDup l -> NoDup (firstn n l).
  Proof.
    induction n as [|n IH]; intros [|x l] Hn; cbn; try constructor; inversion Hn; subst; [|apply IH; assumption].
    intros Hi. apply H2. rewrite <- (firstn_skipn n l). apply in_or_app. left. exact Hi.
  Qed.
  Lemma firstn_in {A} n (l : list A) x : In x (firstn n l) -> In x l.
  Proof. intros Hi. rewrite <- (firstn_skipn n l). apply in_or_app. left. exact Hi. Qed.

  Lemma work_inv p d w : keyed d -> same4 d0 d -> winv p d w ->
    let (d', w') := work H max_depth size p d w in
    keyed d' /\ same4 d0 d' /\ winv p d' w' /\ (forall x, shard x <> p -> viewsame d d' x).
  Proof.
    intros Hk H4 Hw. assert (Hrefl : forall x, shard x <> p -> viewsame d d x) by (repeat split). destruct w as [|[|f fs]|b]; cbn [work].
    - cbn in Hw. unfold calc_dirty. set (chunk := firstn size (pending p d)).
      assert (Hci : forall x, In x chunk -> In (x, false) (d_dirty d) /\ shard x = p) by (intros x Hx; apply firstn_in in Hx; apply pending_in; exact Hx).
      destruct chunk as [|c0 ch] eqn:Ech.
      + cbn [Nat.eqb]. split; [exact Hk|]. split; [exact H4|]. split; [|exact Hrefl]. cbn. intros x Hx. split; [apply Hw; exact Hx|].
        intros E. apply (dl_in d x false Hk) in E. assert (Hi : In x (pending p d)) by (apply pending_in; auto).
        unfold chunk in Ech. destruct (pending p d); [exact Hi|]. destruct size; [lia | discriminate].
      + rewrite <- Ech in *. destruct (pay_rows H max_depth d chunk) as [rows|] eqn:Er.
        * replace (length chunk =? 0) with false by (rewrite Ech; reflexivity).
          destruct (pay_rows_ok _ _ _ Er) as [R1 R2]. split; [exact Hk|]. split; [exact H4|]. split; [|exact Hrefl]. cbn.
          exists chunk, rows, 0. split; [lia|]. split; [reflexivity|]. split; [|split].
          -- split; [rewrite Ech; discriminate|]. split; [apply firstn_nodup; apply pending_nodup; exact Hk|]. split; [exact R1|]. split.
             ++ intros x y Hy. unfold target. rewrite <- (pay_of_same d0 d x H4). apply R2. exact Hy.
             ++ intros x Hx. apply Hci. exact Hx.
          -- intros x Hx. destruct (Hci x Hx) as [Hi Hsx]. destruct (row_of rows chunk x R1 Hx) as (y & Hy).
             assert (Ht : target x y) by (unfold target; rewrite <- (pay_of_same d0 d x H4); apply R2; exact Hy).
             apply (dl_in d x false Hk) in Hi. destruct (Hw x Hsx) as [[Hp [Ho|Hd]]|[Hp (F1 & _)]].
             ++ split; [exact Hp|]. exists y. auto.
             ++ exfalso. destruct Hd as [Hd _]. congruence.
             ++ exfalso. apply Hp. apply (dl_in d0 x false keyed0). congruence.
          -- intros x Hx _. apply Hw. exact Hx.
        * split; [exact Hk|]. split; [exact H4|]. split; [|exact Hrefl]. exact Hw.
    - split; [exact Hk|]. split; [exact H4|]. split; [|exact Hrefl]. cbn. intros x Hx. eapply winv_good; eassumption.
    - destruct Hw as (chunk & rows & j & Hj & Hf & Hc & Hs & Hg). destruct (nth_stmt _ _ _ _ _ Hf) as (Hj4 & -> & Hn).
      destruct (stmt_step p d chunk rows j f Hk H4 Hc Hn Hs) as (S1 & S2 & S3 & S4). split; [exact S1|]. split; [|split].
      + destruct H4 as (A1 & A2 & A3 & A4), S2 as (B1 & B2 & B3 & B4). repeat split; congruence.
      + cbn. exists chunk, rows, (S j). split; [lia|]. split; [reflexivity|]. split; [exact Hc|]. split; [exact S4|].
        intros x Hx Hni. eapply good_same; [apply S3; exact Hni | apply Hg; assumption].
      + intros x Hx. apply S3. intros Hi. apply Hx. apply Hc. exact Hi.
    - split; [exact Hk|]. split; [exact H4|]. split; [exact Hw | exact Hrefl].
  Qed.
  Lemma exec1_inv s e : inv s -> inv (exec1 H max_depth size s e).
  Proof.
    intros (I1 & I2 & I3). destruct s as [d ws]. cbn [fst snd] in *. destruct e as [p|]; cbn [exec1].
    - destruct (p <? partitions) eqn:Ep; [|split; [|split]; assumption]. apply Nat.ltb_lt in Ep. cbn [fst snd].
      pose proof (work_inv p d (ws p) I1 I2 (I3 p Ep)) as Hw. destruct (work H max_depth size p d (ws p)) as [d' w'].
      destruct Hw as (W1 & W2 & W3 & W4). split; [exact W1|]. split; [exact W2|]. cbn [fst snd]. intros q Hq. destruct (q =? p) eqn:Eq.
      + apply Nat.eqb_eq in Eq. subst. exact W3.
      + apply Nat.eqb_neq in Eq. eapply winv_same; [|apply I3; exact Hq]. intros x Hx. apply W4. congruence.
    - split; [exact I1|]. split; [exact I2|]. cbn [start fst snd]. intros q Hq. cbn. intros x Hx. eapply winv_good; [apply I3; exact Hq | exact Hx].
  Qed.
  Lemma start_inv : inv (start d0).
  Proof.
    split; [exact keyed0|]. split; [repeat split|]. intros p _. cbn. intros x _.
    destruct (in_dec (fun a b : bytes * bool => ltac:(destruct a as [a1 a2], b as [b1 b2]; destruct (list_eq_dec byte_eq_dec a1 b1); [|right; congruence]; destruct (Bool.bool_dec a2 b2); [left | right]; congruence)) (x, false) (d_dirty d0)) as [Hi|Hi].
    - left. split; [exact Hi|]. left. split; [apply (dl_in d0 x false keyed0); exact Hi | left; reflexivity].
    - right. split; [exact Hi|]. repeat split.
  Qed.
  Lemma exec_inv es : forall s, inv s -> inv (exec H max_depth size s es).
  Proof. induction es as [|e es IH]; intros s Hs; [exact Hs|]. cbn. apply IH. apply exec1_inv. exact Hs. Qed.

  (** ** The result *)
  Lemma returned_all s p : returned s = true -> p < partitions -> snd s p = Stopped true.
  Proof.
    unfold returned. rewrite forallb_forall. intros Hr Hp. specialize (Hr p). rewrite in_seq in Hr. specialize (Hr ltac:(lia)).
    destruct (snd s p) as [| |[|]]; congruence.
  Qed.
  Lemma look_rows {B} (t : list (bytes * B)) x r : NoDup (map fst t) -> In (x, r) t <-> look fst beqb x t = Some (x, r).
  Proof.
    intros Hn. split; [intros Hi; apply (in_look fst beqb beqb_eq (x, r)); assumption|]. intros E. apply (look_in fst beqb beqb_eq) in E. tauto.
  Qed.
  Lemma same_rows {B} (t t' : list (bytes * B)) x : NoDup (map fst t) -> NoDup (map fst t') -> look fst beqb x t' = look fst beqb x t -> forall r, In (x, r) t' <-> In (x, r) t.
  Proof. intros H1 H2 E r. rewrite (look_rows t' x r H2), (look_rows t x r H1), E. reflexivity. Qed.
  Definition refreshed (d : db) (x : bytes) : Prop := exists cs ps,
    column (d_certs d0) (d_dc d0) x cs /\ column (d_pols d0) (d_dp d0) x ps /\
    (forall r, In (x, r) (d_pay d) <-> (cs <> None \/ ps <> None) /\ r = mk_pr cs (option_map H cs) ps (option_map H ps)) /\
    (forall n, In (x, n) (d_domains d) <-> (cs <> None \/ ps <> None) /\ In (x, n) (d_domains d0)) /\
    (forall b, In (x, b) (d_dirty d) <-> b = true).
  Definition untouched (d : db) (x : bytes) : Prop :=
    (forall r, In (x, r) (d_pay d) <-> In (x, r) (d_pay d0)) /\ (forall n, In (x, n) (d_domains d) <-> In (x, n) (d_domains d0)) /\
    (forall b, In (x, b) (d_dirty d) <-> In (x, b) (d_dirty d0)).
  Theorem coalesced es s : exec H max_depth size (start d0) es = s -> returned s = true ->
    (forall x, In (x, false) (d_dirty d0) -> refreshed (fst s) x) /\ (forall x, ~ In (x, false) (d_dirty d0) -> untouched (fst s) x) /\
    d_certs (fst s) = d_certs d0 /\ d_pols (fst s) = d_pols d0 /\ d_dc (fst s) = d_dc d0 /\ d_dp (fst s) = d_dp d0.
  Proof.
    intros E Hr. assert (Hi : inv s) by (rewrite <- E; apply exec_inv; apply start_inv). destruct Hi as (K & S4 & W). set (d := fst s) in *.
    assert (Hg : forall x, good d x /\ dl d x <> Some (x, false)).
    { intros x. specialize (W (shard x) (shard_lt x)). rewrite (returned_all s _ Hr (shard_lt x)) in W. apply W. reflexivity. }
    destruct keyed0 as (U1 & U2 & U3 & U4 & U5). destruct K as (K1 & K2 & K3 & K4 & K5).
    split; [|split; [|exact S4]]; intros x Hx; destruct (Hg x) as [G N].
    - destruct G as [[_ [[Ho _]|Hd]]|[Hn _]]; [congruence | | contradiction]. destruct Hd as (D1 & p & Ht & D2 & D3).
      unfold target, pay_of in Ht. destruct (closure max_depth (d_certs d0) (d_dc d0) x) as [cs|] eqn:Ec; [|discriminate].
      destruct (closure max_depth (d_pols d0) (d_dp d0) x) as [ps|] eqn:Ep; [|discriminate]. injection Ht as <-.
      exists (glued cs), (glued ps). split; [eapply glued_column; eassumption|]. split; [eapply glued_column; eassumption|].
      set (row := mk_pr (glued cs) (option_map H (glued cs)) (glued ps) (option_map H (glued ps))) in *.
      assert (Hnull : all_null row = false <-> glued cs <> None \/ glued ps <> None).
      { unfold all_null, row. cbn. destruct (glued cs), (glued ps); split; intros; try (left; discriminate); try (right; discriminate); try reflexivity; try discriminate.
        destruct H0; congruence. }
      split; [|split].
      + intros r. rewrite (look_rows _ x r K4). change (look fst beqb x (d_pay d)) with (pl d x). rewrite D2. unfold fpay.
        destruct (all_null row) eqn:En; [split; [discriminate | intros [Hc _]; apply Hnull in Hc; discriminate]|].
        split; [intros E2; injection E2 as <-; split; [apply Hnull; reflexivity | reflexivity] | intros [_ ->]; reflexivity].
      + intros n. rewrite (look_rows _ x n K5). change (look fst beqb x (d_domains d)) with (ml d x). rewrite D3. unfold fdom.
        destruct (all_null row) eqn:En; [split; [discriminate | intros [Hc _]; apply Hnull in Hc; discriminate]|].
        rewrite (look_rows _ x n U5). fold (ml d0 x). split; [intros; split; [apply Hnull; reflexivity | assumption] | tauto].
      + intros b. rewrite (look_rows _ x b K3). change (look fst beqb x (d_dirty d)) with (dl d x). rewrite D1. split; [intros E2; injection E2; auto | intros ->; reflexivity].
    - destruct G as [[Hp _]|[_ (F1 & F2 & F3)]]; [contradiction|]. split; [|split]; apply same_rows; assumption.
  Qed.

  (** ** Termination and absence of errors *)
  Definition weight (d : db) (p : nat) (w : worker) : nat :=
    match w with
    | Idle => 7 * length (pending p d) + 1
    | Running [] => 7 * length (pending p d) + 2
    | Running fs => 7 * (length (pending p d) - 1) + 2 + length fs
    | Stopped _ => 0
    end.
  Fixpoint total_weight (n : nat) (s : system) : nat := match n with O => 0 | S n' => weight (fst s) n' (snd s n') + total_weight n' s end.
  Definition measure (s : system) : nat := total_weight partitions s.
  Lemma pending_same a b p : keyed a -> keyed b -> (forall x, shard x = p -> dl b x = dl a x) -> length (pending p b) = length (pending p a).
  Proof.
    intros Ka Kb Hs. apply Permutation_length. apply NoDup_Permutation; try (apply pending_nodup; assumption). intros x. rewrite !pending_in.
    split; intros [Hi Hx]; (split; [|exact Hx]); specialize (Hs x Hx); [apply (dl_in a x false Ka) | apply (dl_in b x false Kb)].
    - apply (dl_in b x false Kb) in Hi. congruence.
    - apply (dl_in a x false Ka) in Hi. congruence.
  Qed.
  Lemma work_weight p d w : keyed d -> same4 d0 d -> winv p d w -> (match w with Stopped _ => False | _ => True end) ->
    let (d', w') := work H max_depth size p d w in weight d' p w' < weight d p w.
  Proof.
    intros Hk H4 Hw Hl. destruct w as [|[|f fs]|b]; [| | |destruct Hl]; cbn [work].
    - unfold calc_dirty. set (chunk := firstn size (pending p d)). destruct chunk as [|c0 ch] eqn:Ech; [cbn; lia|]. rewrite <- Ech.
      destruct (pay_rows H max_depth d chunk) as [rows|]; [|cbn; lia]. replace (length chunk =? 0) with false by (rewrite Ech; reflexivity).
      unfold weight. cbn [length]. assert (length (pending p d) <> 0) by (unfold chunk in Ech; destruct (pending p d); [rewrite firstn_nil in Ech; discriminate | discriminate]). lia.
    - unfold weight. lia.
    - destruct Hw as (chunk & rows & j & Hj & Hf & Hc & Hs & Hg). destruct (nth_stmt _ _ _ _ _ Hf) as (Hj4 & Hfs & Hn).
      destruct (stmt_step p d chunk rows j f Hk H4 Hc Hn Hs) as (S1 & S2 & S3 & S4).
      destruct Hc as (C1 & C2 & C3 & C4 & C5). destruct chunk as [|c0 ch] eqn:Ech; [congruence|]. rewrite <- Ech in *.
      assert (Hc0 : In c0 chunk) by (rewrite Ech; left; reflexivity).
      assert (Hpend : In c0 (pending p d)).
      { apply pending_in. split; [|apply C5; exact Hc0]. apply (dl_in d c0 false Hk). destruct (Hs c0 Hc0) as (_ & y & _ & Hst).
        destruct j as [|[|[|[|j]]]]; [apply Hst | apply Hst | apply Hst | apply Hst | lia]. }
      destruct (Nat.eq_dec j 3) as [->|Hne].
      + assert (fs = []) as -> by (rewrite Hfs; reflexivity). unfold weight. cbn [length].
        assert (Hlt : S (length (pending p (f d))) <= length (pending p d)).
        { change (S (length (pending p (f d)))) with (length (c0 :: pending p (f d))). apply NoDup_incl_length.
          - constructor; [|apply pending_nodup; exact S1]. intros Hi. apply pending_in in Hi. destruct Hi as [Hi _]. apply (dl_in (f d) c0 false S1) in Hi.
            destruct (S4 c0 Hc0) as (_ & y & _ & Hst & _). congruence.
          - intros x [<-|Hx]; [exact Hpend|]. apply pending_in in Hx. destruct Hx as [Hx Hxs]. apply pending_in. split; [|exact Hxs].
            apply (dl_in (f d) x false S1) in Hx. apply (dl_in d x false Hk). destruct (in_dec (list_eq_dec byte_eq_dec) x chunk) as [Hi|Hi].
            + destruct (S4 x Hi) as (_ & y & _ & Hst & _). congruence.
            + destruct (S3 x Hi) as (V & _). congruence. }
        lia.
      + assert (Hd : d_dirty (f d) = d_dirty d) by (destruct j as [|[|[|j]]]; cbn in Hn; try lia; injection Hn as <-; reflexivity).
        assert (Ep : pending p (f d) = pending p d) by (unfold pending; rewrite Hd; reflexivity).
        destruct fs as [|f2 fs]; [destruct j as [|[|[|j]]]; cbn in Hfs; try discriminate; lia|]. unfold weight. rewrite Ep. cbn [length]. lia.
  Qed.
  Lemma weight_frame a b q w : keyed a -> keyed b -> (forall x, shard x = q -> dl b x = dl a x) -> weight b q w = weight a q w.
  Proof. intros Ka Kb Hv. destruct w as [|[|f fs]|]; cbn [weight]; rewrite ?(pending_same a b q Ka Kb Hv); reflexivity. Qed.
  Lemma measure_step s p : inv s -> p < partitions -> (match snd s p with Stopped _ => False | _ => True end) ->
    measure (exec1 H max_depth size s (Work p)) < measure s.
  Proof.
    intros (I1 & I2 & I3) Hp Hl. destruct s as [d ws]. cbn [fst snd] in *. cbn [exec1]. replace (p <? partitions) with true by (symmetry; apply Nat.ltb_lt; exact Hp). cbn [fst snd].
    pose proof (work_inv p d (ws p) I1 I2 (I3 p Hp)) as Hw. pose proof (work_weight p d (ws p) I1 I2 (I3 p Hp) Hl) as Hwt.
    destruct (work H max_depth size p d (ws p)) as [d' w']. destruct Hw as (W1 & W2 & W3 & W4). unfold measure.
    assert (Hgen : forall n, total_weight n (d', fun q => if q =? p then w' else ws q) + (if p <? n then weight d p (ws p) else 0) =
                             total_weight n (d, ws) + (if p <? n then weight d' p w' else 0)).
    { induction n as [|n IH]; [reflexivity|]. cbn [total_weight fst snd]. destruct (n =? p) eqn:En.
      - apply Nat.eqb_eq in En. subst n. rewrite Nat.ltb_irrefl in IH. replace (p <? S p) with true by (symmetry; apply Nat.ltb_lt; lia). lia.
      - apply Nat.eqb_neq in En. rewrite (weight_frame d d' n (ws n) I1 W1) by (intros x Hx; apply W4; congruence).
        replace (p <? S n) with (p <? n) by (destruct (p <? n) eqn:E1, (p <? S n) eqn:E2; try reflexivity; rewrite ?Nat.ltb_lt, ?Nat.ltb_ge in *; lia). lia. }
    specialize (Hgen partitions). replace (p <? partitions) with true in Hgen by (symmetry; apply Nat.ltb_lt; exact Hp). lia.
  Qed.
  Lemma no_failure es : ranked (d_certs d0) max_depth -> ranked (d_pols d0) max_depth -> forall p, snd (exec H max_depth size (start d0) es) p <> Stopped false.
  Proof.
    intros R1 R2. assert (Hgen : forall s, inv s -> (forall p, snd s p <> Stopped false) -> forall p, snd (exec H max_depth size s es) p <> Stopped false).
    { induction es as [|e es IH]; intros s Hs Hn; [exact Hn|]. cbn. apply IH; [apply exec1_inv; exact Hs|]. intros p. destruct e as [q|]; [|discriminate].
      cbn [exec1]. destruct (q <? partitions) eqn:Eq; [|apply Hn]. apply Nat.ltb_lt in Eq. destruct s as [d ws]. cbn [fst snd] in *.
      assert (Hok : forall chunk, pay_rows H max_depth d chunk <> None).
      { destruct Hs as (_ & S4 & _). cbn [fst] in S4. induction chunk as [|x chunk IHc]; cbn; [discriminate|]. rewrite (pay_of_same d0 d x S4). unfold pay_of.
        destruct (closure_total max_depth _ (d_dc d0) x R1) as (i1 & ->). destruct (closure_total max_depth _ (d_dp d0) x R2) as (i2 & ->).
        destruct (pay_rows H max_depth d chunk); congruence. }
      assert (Hw : snd (work H max_depth size q d (ws q)) <> Stopped false).
      { destruct (ws q) as [|[|f fs]|b] eqn:Ew; cbn [work snd]; try discriminate; [|rewrite <- Ew; apply Hn].
        unfold calc_dirty. destruct (firstn size (pending q d)) as [|c ch] eqn:Ech; [discriminate|]. rewrite <- Ech.
        destruct (pay_rows H max_depth d (firstn size (pending q d))) eqn:Er; [|exfalso; exact (Hok _ Er)].
        rewrite Ech. discriminate. }
      destruct (work H max_depth size q d (ws q)) as [d' w']. cbn [snd] in *. destruct (p =? q); [exact Hw | apply Hn]. }
    apply Hgen; [apply start_inv | discriminate].
  Qed.
  Theorem coalesce_ends es : ranked (d_certs d0) max_depth -> ranked (d_pols d0) max_depth ->
    exists more, returned (exec H max_depth size (start d0) (es ++ more)) = true.
  Proof.
    intros R1 R2.
    assert (Hgen : forall n s, inv s -> measure s < n -> (forall es p, snd (exec H max_depth size s es) p <> Stopped false) -> exists more, returned (exec H max_depth size s more) = true).
    { induction n as [|n IH]; intros s Hs Hm Hnf; [lia|].
      destruct (returned s) eqn:Er; [exists []; exact Er|].
      assert (Hex : exists p, p < partitions /\ match snd s p with Stopped _ => False | _ => True end).
      { unfold returned in Er. assert (Hnot : ~ forall p, p < partitions -> snd s p = Stopped true).
        { intros Hall. assert (Ht : forallb (fun p => match snd s p with Stopped true => true | _ => false end) (seq 0 partitions) = true).
          { apply forallb_forall. intros p Hp. apply in_seq in Hp. rewrite (Hall p) by lia. reflexivity. } congruence. }
        clear -Hnot Hnf. assert (Hd : forall m, (exists p, p < m /\ match snd s p with Stopped _ => False | _ => True end) \/ forall p, p < m -> snd s p = Stopped true).
        { induction m as [|m IHm]; [right; intros; lia|]. destruct IHm as [(p & Hp & Hq)|Ha]; [left; exists p; split; [lia | exact Hq]|].
          destruct (snd s m) as [| |[|]] eqn:Em; [left; exists m; split; [lia | rewrite Em; exact I] | left; exists m; split; [lia | rewrite Em; exact I] | right | exfalso; exact (Hnf [] m Em)].
          intros p Hp. destruct (Nat.eq_dec p m) as [->|]; [exact Em | apply Ha; lia]. }
        destruct (Hd partitions); [assumption | contradiction]. }
      destruct Hex as (p & Hp & Hl). destruct (IH (exec1 H max_depth size s (Work p))) as (more & Hmore).
      - apply exec1_inv. exact Hs.
      - pose proof (measure_step s p Hs Hp Hl). lia.
      - intros es' q. exact (Hnf (Work p :: es') q).
      - exists (Work p :: more). exact Hmore. }
    destruct (Hgen (S (measure (exec H max_depth size (start d0) es))) (exec H max_depth size (start d0) es)) as (more & Hmore).
    - apply exec_inv. apply start_inv.
    - lia.
    - intros es' p. unfold exec. rewrite <- fold_left_app. apply no_failure; assumption.
    - exists more. unfold exec in *. rewrite fold_left_app. exact Hmore.
  Qed.

  (** Under a fair schedule all workers end. *)
  Definition at_time (f : nat -> nat) (n : nat) : system := exec H max_depth size (start d0) (map (fun k => Work (f k)) (seq 0 n)).
  Lemma at_time_S f n : at_time f (S n) = exec1 H max_depth size (at_time f n) (Work (f n)).
  Proof. unfold at_time, exec. rewrite seq_S, map_app, fold_left_app. reflexivity. Qed.
  Lemma at_time_inv f n : inv (at_time f n).
  Proof. apply exec_inv. apply start_inv. Qed.
  Definition live (s : system) (p : nat) : Prop := match snd s p with Stopped _ => False | _ => True end.
  Lemma step_other s p q : q <> p -> snd (exec1 H max_depth size s (Work p)) q = snd s q.
  Proof.
    intros Hq. cbn [exec1]. destruct (p <? partitions); [|reflexivity]. destruct (work H max_depth size p (fst s) (snd s p)) as [d' w']. cbn [snd].
    replace (q =? p) with false by (symmetry; apply Nat.eqb_neq; exact Hq). reflexivity.
  Qed.
  Lemma step_stopped s p : ~ live s p -> measure (exec1 H max_depth size s (Work p)) = measure s /\ forall q, snd (exec1 H max_depth size s (Work p)) q = snd s q.
  Proof.
    intros Hl. cbn [exec1]. destruct (p <? partitions); [|auto]. unfold live in Hl. destruct s as [d ws]. cbn [fst snd] in *.
    destruct (ws p) as [|fs|b] eqn:Ew; [exfalso; apply Hl; exact I | exfalso; apply Hl; exact I|]. cbn [work fst snd].
    assert (Hq : forall q, (if q =? p then Stopped b else ws q) = ws q) by (intros q; destruct (q =? p) eqn:E; [apply Nat.eqb_eq in E; congruence | reflexivity]).
    split; [|exact Hq]. unfold measure. generalize partitions. induction n as [|n IH]; [reflexivity|]. cbn [total_weight fst snd]. rewrite Hq. lia.
  Qed.
  Lemma measure_le s p : inv s -> measure (exec1 H max_depth size s (Work p)) <= measure s.
  Proof.
    intros Hi. destruct (p <? partitions) eqn:Ep; [|cbn [exec1]; rewrite Ep; lia]. apply Nat.ltb_lt in Ep.
    destruct (snd s p) as [|fs|b] eqn:Ew.
    - pose proof (measure_step s p Hi Ep) as Hm. rewrite Ew in Hm. specialize (Hm I). lia.
    - pose proof (measure_step s p Hi Ep) as Hm. rewrite Ew in Hm. specialize (Hm I). lia.
    - destruct (step_stopped s p) as [E _]; [unfold live; rewrite Ew; tauto|]. lia.
  Qed.
  Lemma live_until f n p : live (at_time f n) p -> forall k, (forall j, j < k -> f (n + j) <> p) -> live (at_time f (n + k)) p.
  Proof.
    intros Hl. induction k as [|k IH]; intros Hf; [rewrite Nat.add_0_r; exact Hl|]. rewrite Nat.add_succ_r, at_time_S. unfold live. rewrite step_other.
    - apply IH. intros j Hj. apply Hf. lia.
    - intros E. apply (Hf k); [lia | congruence].
  Qed.
  Lemma first_hit (f : nat -> nat) n p m : n <= m -> f m = p -> exists k, f (n + k) = p /\ forall j, j < k -> f (n + j) <> p.
  Proof.
    intros Hm Hf. remember (m - n) as k eqn:Ek. assert (Hf' : f (n + k) = p) by (subst k; replace (n + (m - n)) with m by lia; exact Hf). clear Ek Hf Hm m.
    induction k as [k IH] using lt_wf_ind. 
    assert (Hd : (exists j, j < k /\ f (n + j) = p) \/ forall j, j < k -> f (n + j) <> p).
    { clear. induction k as [|k IHk]; [right; intros; lia|]. destruct IHk as [(j & Hj & E)|Hn]; [left; exists j; split; [lia | exact E]|].
      destruct (Nat.eq_dec (f (n + k)) p) as [E|E]; [left; exists k; split; [lia | exact E]|]. right. intros j Hj. destruct (Nat.eq_dec j k) as [->|]; [exact E | apply Hn; lia]. }
    destruct Hd as [(j & Hj & E)|Hn]; [exact (IH j Hj E) | exists k; auto].
  Qed.
  Lemma measure_run f n k : measure (at_time f (n + k)) <= measure (at_time f n).
  Proof. induction k as [|k IH]; [rewrite Nat.add_0_r; lia|]. rewrite Nat.add_succ_r, at_time_S. pose proof (measure_le (at_time f (n + k)) (f (n + k)) (at_time_inv f (n + k))). lia. Qed.
  Theorem coalesce_fair f : ranked (d_certs d0) max_depth -> ranked (d_pols d0) max_depth ->
    (forall p n, p < partitions -> exists m, n <= m /\ f m = p) -> exists n, returned (at_time f n) = true.
  Proof.
    intros R1 R2 Hfair.
    assert (Hgen : forall b n, measure (at_time f n) < b -> exists n', returned (at_time f n') = true).
    { induction b as [|b IH]; intros n Hb; [lia|]. destruct (returned (at_time f n)) eqn:Er; [eauto|].
      assert (Hd : forall m, (exists p, p < m /\ live (at_time f n) p) \/ forall p, p < m -> snd (at_time f n) p = Stopped true).
      { induction m as [|m IHm]; [right; intros; lia|]. destruct IHm as [(p & Hp & Hq)|Ha]; [left; exists p; split; [lia | exact Hq]|].
        destruct (snd (at_time f n) m) as [| |[|]] eqn:Em; [left; exists m; split; [lia | unfold live; rewrite Em; exact I] | left; exists m; split; [lia | unfold live; rewrite Em; exact I] | right | exfalso; exact (no_failure _ R1 R2 m Em)].
        intros p Hp. destruct (Nat.eq_dec p m) as [->|]; [exact Em | apply Ha; lia]. }
      destruct (Hd partitions) as [(p & Hp & Hl)|Hall].
      - destruct (Hfair p n Hp) as (m & Hm & Em). destruct (first_hit f n p m Hm Em) as (k & Ek & Hk).
        pose proof (live_until f n p Hl k Hk) as Hlk. apply (IH (S (n + k))). rewrite at_time_S, Ek.
        pose proof (measure_step (at_time f (n + k)) p (at_time_inv f (n + k)) Hp Hlk). pose proof (measure_run f n k). lia.
      - exfalso. unfold returned in Er. assert (Ht : forallb (fun p => match snd (at_time f n) p with Stopped true => true | _ => false end) (seq 0 partitions) = true).
        { apply forallb_forall. intros p Hp. apply in_seq in Hp. rewrite (Hall p) by lia. reflexivity. } congruence. }
    apply (Hgen (S (measure (at_time f 0))) 0). lia.
  Qed.
End Coalesce.
