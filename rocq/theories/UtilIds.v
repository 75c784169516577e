(** Sets of identifiers glued into byte strings; unfolding of certificate chains. *)
From Coq Require Import Permutation Sorted.
From Verif Require Import Base BaseLemmas UtilModel UtilSort.

Definition id_le (x y : bytes) : Prop := bcmp x y <> Gt.
Lemma id_le_antisym x y : id_le x y -> id_le y x -> x = y.
Proof.
  unfold id_le. rewrite (bcmp_antisym x y). destruct (bcmp x y) eqn:Hc; cbn; intros H1 H2; try congruence.
  apply bcmp_eq. exact Hc.
Qed.
Lemma id_le_trans x y z : id_le x y -> id_le y z -> id_le x z.
Proof.
  unfold id_le. intros H1 H2 H3. apply bcmp_gt in H3.
  destruct (bcmp x y) eqn:Hxy; [apply bcmp_eq in Hxy; subst; apply bcmp_gt in H3; congruence | |congruence].
  destruct (bcmp y z) eqn:Hyz; [apply bcmp_eq in Hyz; subst; apply bcmp_gt in H3; congruence | |congruence].
  pose proof (bcmp_trans _ _ _ Hxy Hyz) as Hc. apply bcmp_gt in H3. congruence.
Qed.
Lemma insert_perm x l : Permutation (insert_id x l) (x :: l).
Proof.
  induction l as [|y l IH]; [reflexivity|]. cbn [insert_id]. destruct (bcmp x y); try reflexivity.
  rewrite IH. apply perm_swap.
Qed.
Lemma sort_perm l : Permutation (sort_ids l) l.
Proof. induction l as [|x l IH]; [reflexivity|]. cbn [sort_ids]. rewrite insert_perm, IH. reflexivity. Qed.
Lemma insert_sorted x l : StronglySorted id_le l -> StronglySorted id_le (insert_id x l).
Proof.
  induction l as [|y l IH]; intros Hs; [repeat constructor|]. inversion Hs as [|? ? Hs' Hf]; subst. cbn [insert_id].
  destruct (bcmp x y) eqn:Hc.
  1,2: constructor; [exact Hs|]; constructor; [unfold id_le; congruence|]; eapply Forall_impl; [|exact Hf]; intros z Hz; apply id_le_trans with y; [unfold id_le; congruence | exact Hz].
  constructor; [apply IH; exact Hs'|]. rewrite Forall_forall in *. intros z Hz.
  apply (Permutation_in _ (insert_perm x l)) in Hz. destruct Hz as [<-|Hz]; [|auto].
  unfold id_le. apply bcmp_gt in Hc. congruence.
Qed.
Lemma sort_sorted l : StronglySorted id_le (sort_ids l).
Proof. induction l as [|x l IH]; [constructor|]. cbn [sort_ids]. apply insert_sorted. exact IH. Qed.
Lemma sorted_unique l l' : StronglySorted id_le l -> StronglySorted id_le l' -> Permutation l l' -> l = l'.
Proof.
  revert l'. induction l as [|x l IH]; intros l' Hs Hs' Hp.
  - apply Permutation_nil in Hp. congruence.
  - destruct l' as [|y l']; [symmetry in Hp; apply Permutation_nil in Hp; discriminate|].
    inversion Hs as [|? ? Hs1 Hf1]; subst. inversion Hs' as [|? ? Hs2 Hf2]; subst.
    assert (Hxy : x = y).
    { rewrite Forall_forall in Hf1, Hf2.
      destruct (Permutation_in x Hp (or_introl eq_refl)) as [Hq|Hq]; [congruence|].
      destruct (Permutation_in y (Permutation_sym Hp) (or_introl eq_refl)) as [Hq'|Hq']; [congruence|].
      apply id_le_antisym; auto. }
    subst y. f_equal. apply IH; auto. apply Permutation_cons_inv with x. exact Hp.
Qed.
Lemma sort_ids_perm l l' : Permutation l l' -> sort_ids l = sort_ids l'.
Proof. intros Hp. apply sorted_unique; try apply sort_sorted. rewrite !sort_perm. exact Hp. Qed.

Lemma take_ids_concat ids : Forall (fun i : bytes => length i = IDSize) ids -> take_ids (length ids) (concat ids) = ids.
Proof.
  induction ids as [|i ids IH]; intros Hf; [reflexivity|]. inversion Hf as [|? ? Hi Hf']; subst. cbn [length take_ids concat].
  rewrite firstn_app_exact, skipn_app_exact, IH by assumption. reflexivity.
Qed.
Lemma concat_length ids : Forall (fun i : bytes => length i = IDSize) ids -> length (concat ids) = IDSize * length ids.
Proof.
  induction ids as [|i ids IH]; intros Hf; [reflexivity|]. inversion Hf as [|? ? Hi Hf']; subst. cbn [concat]. rewrite app_length, IH by assumption.
  cbn [length]. unfold IDSize in *. lia.
Qed.
Theorem ids_round_trip ids : Forall (fun i : bytes => length i = IDSize) ids -> bytes_to_ids (ids_to_bytes ids) = ids.
Proof.
  intros Hf. unfold bytes_to_ids, ids_to_bytes. rewrite concat_length by exact Hf.
  rewrite Nat.mul_comm, Nat.div_mul by (unfold IDSize; lia). apply take_ids_concat. exact Hf.
Qed.
Lemma concat_take n : forall b, length b = n * IDSize -> concat (take_ids n b) = b.
Proof.
  induction n as [|n IH]; intros b Hb; [destruct b; [reflexivity | discriminate]|]. cbn [take_ids concat].
  rewrite IH; [apply firstn_skipn|]. rewrite skipn_length. unfold IDSize in *. lia.
Qed.
Theorem bytes_round_trip b : length b mod IDSize = 0 -> ids_to_bytes (bytes_to_ids b) = b.
Proof.
  intros Hm. unfold ids_to_bytes, bytes_to_ids. apply concat_take.
  pose proof (Nat.div_mod (length b) IDSize ltac:(unfold IDSize; lia)). lia.
Qed.

(** The caller's slice lies in its array. *)
Definition in_heap (h : heap) (s : slice) : Prop :=
  sl_arr s < length h /\ sl_len s <= length (nth (sl_arr s) h []).

Lemma set_nth_self {A} i (d : A) l : set_nth i (nth i l d) l = l.
Proof. revert i. induction l as [|x l IH]; intros [|i]; cbn; congruence. Qed.
Lemma set_nth_app_len {A} (l : list A) x y : set_nth (length l) x (l ++ [y]) = l ++ [x].
Proof. induction l as [|z l IH]; cbn; congruence. Qed.
Lemma nth_app_len {A} (l : list A) x d : nth (length l) (l ++ [x]) d = x.
Proof. rewrite app_nth2, Nat.sub_diag by lia. reflexivity. Qed.

Theorem glue_ok h s h' b : in_heap h s -> sort_ids_and_glue h s = (h', b) ->
  firstn (length h) h' = h /\ b = concat (sort_ids (sl_get h s)).
Proof.
  intros [Ha Hl] Hq. unfold sort_ids_and_glue, sl_append in Hq. cbn [sl_len sl_cap sl_arr] in Hq.
  remember (sl_get h s) as ids eqn:Hids.
  destruct ids as [|i ids].
  - cbn [length Nat.add Nat.leb] in Hq. cbn [firstn app skipn] in Hq.
    rewrite set_nth_self in Hq. unfold sl_sort, sl_get in Hq. cbn [sl_arr sl_len firstn sort_ids app skipn] in Hq.
    rewrite set_nth_self in Hq. injection Hq as <- <-. split; [apply firstn_all | reflexivity].
  - cbn [length Nat.add Nat.leb] in Hq. unfold sl_sort, sl_get in Hq. cbn [sl_arr sl_len app] in Hq. rewrite firstn_O in Hq. cbn [app] in Hq.
    rewrite nth_app_len in Hq. change (S (length ids)) with (length (i :: ids)) in Hq. rewrite firstn_all, skipn_all, app_nil_r in Hq.
    rewrite set_nth_app_len, nth_app_len in Hq.
    pose proof (Permutation_length (sort_perm (i :: ids))) as Hpl. rewrite <- Hpl in Hq. rewrite firstn_all in Hq. injection Hq as <- <-.
    split; [apply firstn_app_exact; reflexivity | reflexivity].
Qed.

(** ** Unfolding *)
Section Unfold.
  Variable H : bytes -> bytes.

  (** The rows one chain gives: the certificate, then its chain, each certificate with the next one as parent. *)
  Fixpoint chain_rows (c : cert) (chain : list cert) : list out_row :=
    match chain with
    | [] => [(c, H (raw c), None, None)]
    | p :: rest => (c, H (raw c), Some (H (raw p)), None) :: chain_rows p rest
    end.
  Definition leaf_rows (c : cert) (chain : list cert) : list out_row :=
    match chain with
    | [] => [(c, H (raw c), None, Some (cert_names c))]
    | p :: rest => (c, H (raw c), Some (H (raw p)), Some (cert_names c)) :: chain_rows p rest
    end.
  Definition rows_of (first : bool) (cc : cert * list cert) : list out_row :=
    if first then leaf_rows (fst cc) (snd cc) else chain_rows (fst cc) (snd cc).
  Lemma rows_of_eq first cc : rows_of first cc =
    unfold_row H first (fst cc) (snd cc) :: flat_map (rows_of false) (match snd cc with [] => [] | p :: rest => [(p, rest)] end).
  Proof. destruct cc as [c [|p rest]]; destruct first; cbn; rewrite ?app_nil_r; reflexivity. Qed.

  Lemma rounds_perm fuel : forall first l,
    (forall cc, In cc l -> length (snd cc) < fuel) ->
    Permutation (unfold_rounds H fuel first l) (flat_map (rows_of first) l).
  Proof.
    induction fuel as [|f IH]; intros first l Hl.
    - destruct l as [|cc l]; [reflexivity|]. specialize (Hl cc (or_introl eq_refl)). lia.
    - cbn [unfold_rounds]. destruct l as [|cc0 l0] eqn:El; [reflexivity|]. rewrite <- El in *. clear El.
      rewrite IH.
      + induction l as [|cc l IHl]; [reflexivity|]. cbn [map flat_map pending]. rewrite flat_map_app.
        rewrite (rows_of_eq first cc). cbn [app]. constructor.
        rewrite <- IHl by (intros x Hx; apply Hl; right; exact Hx).
        fold (pending l). rewrite !app_assoc. apply Permutation_app_tail. apply Permutation_app_comm.
      + intros cc Hcc. unfold pending in Hcc. apply in_flat_map in Hcc as (x & Hx & Hin). specialize (Hl x Hx).
        destruct (snd x) as [|p rest] eqn:Hs; [destruct Hin|]. destruct Hin as [<-|[]]. cbn in *. lia.
  Qed.

  Theorem unfold_certs_perm l : Permutation (unfold_certs H l) (flat_map (rows_of true) l).
  Proof.
    apply rounds_perm. intros cc Hcc. apply Nat.lt_succ_r.
    induction l as [|x l IH]; [destruct Hcc|]. cbn [map fold_right]. destruct Hcc as [<-|Hcc]; [lia|]. specialize (IH Hcc). lia.
  Qed.
  (** The leaves come first, in order. *)
  Theorem unfold_certs_leaves l : map (fun r => fst (fst (fst r))) (firstn (length l) (unfold_certs H l)) = map fst l.
  Proof.
    unfold unfold_certs. cbn [unfold_rounds]. destruct l as [|cc l0]; [reflexivity|].
    rewrite firstn_app_exact by (rewrite map_length; reflexivity). rewrite map_map. apply map_ext. intros [c ch]. reflexivity.
  Qed.

  (** Rows of one chain with known certificates left out (nil entries); [Some] ones before the first nil. *)
  Theorem unfold_cert_ok leaf id chain rows : unfold_cert leaf id chain = Ok rows ->
    exists pid rest, rows = (leaf, id, Some pid, Some (cert_names leaf)) :: rest /\
    (exists c tl, chain = (c, pid) :: tl) /\
    forall k r, nth_error rest k = Some r ->
      exists c cid, nth_error chain k = Some (Some c, cid) /\
        r = (c, cid, match nth_error chain (S k) with None => None | Some p => Some (snd p) end, None).
  Proof.
    destruct chain as [|[c pid] tl]; [discriminate|]. intros Hq. unfold unfold_cert in Hq. injection Hq as <-.
    exists pid, (unfold_parents ((c, pid) :: tl)). split; [reflexivity|]. split; [eauto|].
    generalize ((c, pid) :: tl). clear. intros l. induction l as [|[[c|] cid] l IH]; intros k r Hk.
    - destruct k; discriminate.
    - cbn [unfold_parents] in Hk. destruct k as [|k].
      + cbn in Hk. injection Hk as <-. exists c, cid. split; [reflexivity|]. cbn. destruct l as [|[? ?] ?]; reflexivity.
      + cbn [nth_error] in *. apply IH. exact Hk.
    - destruct k; discriminate.
  Qed.
  (** It stops only at the end of the chain or at a nil entry. *)
  Theorem unfold_cert_stops leaf id chain rows : unfold_cert leaf id chain = Ok rows ->
    nth_error chain (length rows - 1) = None \/ exists i, nth_error chain (length rows - 1) = Some (None, i).
  Proof.
    intros Hq. assert (Hl : length rows - 1 = length (unfold_parents chain)).
    { destruct chain as [|[c pid] tl]; [discriminate|]. unfold unfold_cert in Hq. remember (unfold_parents ((c, pid) :: tl)) as ps.
      injection Hq as <-. cbn [length]. lia. }
    rewrite Hl. clear. induction chain as [|[[c|] cid] l IH]; cbn; eauto.
  Qed.
End Unfold.
