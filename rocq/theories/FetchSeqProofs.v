(** Lemmas about downloading a range of a log and about chains of local files. *)
From Coq Require Import Permutation.
From Verif Require Import Base BaseLemmas FetchModel.

Lemma skipn_plus {A} x y (l : list A) : skipn x (skipn y l) = skipn (y + x) l.
Proof. revert l. induction y as [|y IH]; intros l; [reflexivity|]. destruct l as [|c l]; cbn; [destruct x; reflexivity | apply IH]. Qed.
Lemma entries_length {E} (log : Z -> E) a b : length (entries E log a b) = Z.to_nat (b - a + 1).
Proof. unfold entries. rewrite map_length, seq_length. reflexivity. Qed.
Lemma entries_app {E} (log : Z -> E) a m b : (a - 1 <= m <= b)%Z -> entries E log a b = entries E log a m ++ entries E log (m + 1) b.
Proof.
  intros Hm. unfold entries. replace (Z.to_nat (b - a + 1)) with (Z.to_nat (m - a + 1) + Z.to_nat (b - (m + 1) + 1)) by lia.
  rewrite seq_app, map_app. f_equal. rewrite Nat.add_0_l, <- (Nat.add_0_r (Z.to_nat (m - a + 1))) at 1.
  set (k := Z.to_nat (m - a + 1)). set (n := Z.to_nat (b - (m + 1) + 1)).
  assert (S : seq (k + 0) n = map (fun j => k + j) (seq 0 n)).
  { clearbody k n. generalize 0. induction n as [|n IH]; intros z; [reflexivity|]. cbn. f_equal. rewrite <- IH. f_equal. lia. }
  rewrite S, map_map. apply map_ext. intros j. f_equal. lia.
Qed.
Lemma entries_nil {E} (log : Z -> E) a b : (b < a)%Z -> entries E log a b = [].
Proof. intros H. unfold entries. replace (Z.to_nat (b - a + 1)) with 0 by lia. reflexivity. Qed.
Lemma entries_in {E} (log : Z -> E) a b x : In x (entries E log a b) <-> exists j, (a <= j <= b)%Z /\ x = log j.
Proof.
  unfold entries. rewrite in_map_iff. split.
  - intros (j & <- & Hj). apply in_seq in Hj. exists (a + Z.of_nat j)%Z. split; [lia | reflexivity].
  - intros (j & Hj & ->). exists (Z.to_nat (j - a)). split; [f_equal; lia|]. apply in_seq. lia.
Qed.

(** ** Downloading *)
Section Download.
  Variable E : Type.
  Variable log : Z -> E.
  Variable srv : nat -> Z -> Z -> option (list E).
  (** Every answer has between one entry and all that were asked for, from the first one on. *)
  Definition honest : Prop := forall n a b l, (a <= b)%Z -> srv n a b = Some l ->
    exists c, (a <= c <= b)%Z /\ l = entries E log a c.
  Hypothesis Hsrv : honest.

  Lemma raw_loop_ok fuel : forall n buf a b o, (0 <= o <= b - a + 1)%Z -> Z.to_nat (b - a + 1 - o) < fuel ->
    Z.to_nat (b - a + 1) <= length buf -> firstn (Z.to_nat o) buf = entries E log a (a + o - 1) ->
    raw_loop E srv fuel n buf a b o = Some Err \/
    exists buf' n', raw_loop E srv fuel n buf a b o = Some (Ok (buf', n')) /\ length buf' = length buf /\
      firstn (Z.to_nat (b - a + 1)) buf' = entries E log a b /\ skipn (Z.to_nat (b - a + 1)) buf' = skipn (Z.to_nat (b - a + 1)) buf.
  Proof.
    induction fuel as [|fuel IH]; intros n buf a b o Ho Hf Hl Hb; [lia|]. cbn [raw_loop].
    destruct (Z.ltb_spec o (b - a + 1)) as [Hlt|Hge].
    - destruct (srv n (a + o) b) as [l|] eqn:Es; [|left; reflexivity].
      destruct (Hsrv n (a + o)%Z b l ltac:(lia) Es) as (c & Hc & ->). pose proof (entries_length log (a + o) c) as Hlen.
      set (l := entries E log (a + o) c) in *. unfold write.
      replace (Z.to_nat o + length l <=? length buf) with true by (symmetry; apply Nat.leb_le; lia).
      set (buf1 := firstn (Z.to_nat o) buf ++ l ++ skipn (Z.to_nat o + length l) buf).
      assert (Hl1 : length buf1 = length buf) by (unfold buf1; rewrite !app_length, skipn_length, firstn_length_le by lia; lia).
      destruct (IH (S n) buf1 a b (o + Z.of_nat (length l))%Z) as [Hr|(buf2 & n2 & Hr & H1 & H2 & H3)]; try lia.
      + replace (Z.to_nat (o + Z.of_nat (length l))) with (Z.to_nat o + length l) by lia.
        unfold buf1. rewrite firstn_app, firstn_length_le by lia. replace (Z.to_nat o + length l - Z.to_nat o) with (length l) by lia.
        rewrite (firstn_all2 (firstn (Z.to_nat o) buf)) by (rewrite firstn_length_le; lia).
        rewrite firstn_app, Nat.sub_diag, firstn_O, app_nil_r, firstn_all, Hb. symmetry.
        replace (a + (o + Z.of_nat (length l)) - 1)%Z with c by lia. unfold l.
        rewrite (entries_app log a (a + o - 1) c) by lia. f_equal. f_equal. lia.
      + left. exact Hr.
      + right. exists buf2, n2. split; [exact Hr|]. split; [lia|]. split; [exact H2|]. rewrite H3. unfold buf1.
        rewrite skipn_app, firstn_length_le by lia. rewrite skipn_all2 by (rewrite firstn_length_le; lia). cbn [app].
        rewrite skipn_app. rewrite skipn_all2 by lia. cbn [app]. rewrite skipn_plus. f_equal. lia.
    - right. exists buf, n. split; [reflexivity|]. split; [reflexivity|]. split; [|reflexivity].
      replace (b - a + 1)%Z with o by lia. rewrite Hb. f_equal. lia.
  Qed.
  Lemma raw_entries_ok fuel n buf a b : (a <= b)%Z -> Z.to_nat (b - a + 1) < fuel -> length buf = Z.to_nat (b - a + 1) ->
    raw_entries E srv fuel n buf a b = Some Err \/
    exists n', raw_entries E srv fuel n buf a b = Some (Ok (entries E log a b, n')).
  Proof.
    intros Hab Hf Hl. unfold raw_entries, in_range. replace ((0 <=? b - a)%Z && (b - a <? Z.of_nat (length buf))%Z) with true
      by (symmetry; apply andb_true_iff; split; [apply Z.leb_le | apply Z.ltb_lt]; lia).
    destruct (raw_loop_ok fuel n buf a b 0) as [Hr|(buf' & n' & Hr & H1 & H2 & _)]; try lia.
    - cbn. symmetry. apply entries_nil. lia.
    - left. exact Hr.
    - right. exists n'. rewrite Hr. rewrite firstn_all2 in H2 by lia. rewrite H2. reflexivity.
  Qed.

  Variable sbs : Z.
  Hypothesis Hsbs : (0 < sbs)%Z.

  Lemma on_slice_ok buf lo hi f : lo <= hi <= length buf -> forall r,
    (f (firstn (hi - lo) (skipn lo buf)) = Some Err \/ exists n', f (firstn (hi - lo) (skipn lo buf)) = Some (Ok (r, n'))) -> length r = hi - lo ->
    on_slice E buf lo hi f = Some Err \/ exists buf' n', on_slice E buf lo hi f = Some (Ok (buf', n')) /\ length buf' = length buf /\
      firstn hi buf' = firstn lo buf ++ r.
  Proof.
    intros Hlh r [Hr|(n' & Hr)] Hl; unfold on_slice; rewrite Hr; [left; reflexivity|]. right. eexists _, n'. split; [reflexivity|].
    split; [rewrite !app_length, skipn_length, firstn_length_le by lia; lia|].
    rewrite app_assoc. apply firstn_app_exact. rewrite app_length, firstn_length_le by lia. lia.
  Qed.

  Lemma batches_loop_ok fuel : Z.to_nat sbs < fuel -> forall todo i n buf a, (0 <= i)%Z ->
    Z.to_nat ((i + Z.of_nat todo) * sbs) <= length buf -> firstn (Z.to_nat (i * sbs)) buf = entries E log a (a + i * sbs - 1) ->
    batches_loop E srv sbs fuel todo i n buf a = Some Err \/
    exists buf' n', batches_loop E srv sbs fuel todo i n buf a = Some (Ok (buf', n')) /\ length buf' = length buf /\
      firstn (Z.to_nat ((i + Z.of_nat todo) * sbs)) buf' = entries E log a (a + (i + Z.of_nat todo) * sbs - 1).
  Proof.
    intros Hfuel. induction todo as [|todo IH]; intros i n buf a Hi Hl Hb; cbn [batches_loop].
    - right. exists buf, n. split; [reflexivity|]. split; [reflexivity|]. rewrite Z.add_0_r. exact Hb.
    - set (ba := (a + i * sbs)%Z). set (lo := Z.to_nat (i * sbs)). set (hi := Z.to_nat ((i + 1) * sbs)).
      assert (Hlh : lo <= hi <= length buf /\ hi - lo = Z.to_nat sbs) by (unfold lo, hi; nia).
      destruct (on_slice_ok buf lo hi (fun sub => raw_entries E srv fuel n sub ba (ba + sbs - 1)) (proj1 Hlh) (entries E log ba (ba + sbs - 1))) as [Hr|(buf1 & n1 & Hr & H1 & H2)].
      + apply raw_entries_ok; [lia | lia |]. rewrite firstn_length_le; [lia|]. rewrite skipn_length. lia.
      + rewrite entries_length. lia.
      + left. rewrite Hr. reflexivity.
      + rewrite Hr. replace (i + Z.of_nat (S todo))%Z with ((i + 1) + Z.of_nat todo)%Z by lia. destruct (IH (i + 1)%Z n1 buf1 a) as [Hr2|(buf2 & n2 & Hr2 & H3 & H4)].
        * lia.
        * rewrite H1. replace (i + 1 + Z.of_nat todo)%Z with (i + Z.of_nat (S todo))%Z by lia. exact Hl.
        * fold hi. rewrite H2. unfold lo. rewrite Hb. rewrite (entries_app log a (a + i * sbs - 1) (a + (i + 1) * sbs - 1)) by nia. f_equal. f_equal; unfold ba; lia.
        * left. exact Hr2.
        * right. exists buf2, n2. split; [exact Hr2|]. split; [lia | exact H4].
  Qed.

  Lemma in_batches_ok fuel n buf a b : (a <= b)%Z -> Z.to_nat (Z.min sbs (b - a + 1)) < fuel -> Z.to_nat (b - a + 1) <= length buf ->
    in_batches E srv sbs fuel n buf a b = Some Err \/
    exists buf' n', in_batches E srv sbs fuel n buf a b = Some (Ok (buf', n')) /\ length buf' = length buf /\
      firstn (Z.to_nat (b - a + 1)) buf' = entries E log a b.
  Proof.
    intros Hab Hf Hl. unfold in_batches. replace (b <? a)%Z with false by (symmetry; apply Z.ltb_ge; lia).
    unfold in_range. replace ((0 <=? b - a)%Z && (b - a <? Z.of_nat (length buf))%Z) with true
      by (symmetry; apply andb_true_iff; split; [apply Z.leb_le | apply Z.ltb_lt]; lia).
    set (count := ((b - a + 1) / sbs)%Z). pose proof (Z.div_mod (b - a + 1) sbs ltac:(lia)) as Hdm. pose proof (Z.mod_pos_bound (b - a + 1) sbs Hsbs) as Hmb.
    fold count in Hdm. assert (Hc0 : (0 <= count)%Z) by (apply Z.div_pos; lia).
    assert (Hcs : (0 <= count * sbs <= b - a + 1)%Z) by nia.
    destruct (Z.eq_dec count 0) as [Hz|Hnz].
    - rewrite Hz. cbn [Z.to_nat batches_loop]. cbn [Z.mul]. replace (0 + a <=? b)%Z with true by (symmetry; apply Z.leb_le; lia).
      destruct (on_slice_ok buf (Z.to_nat 0) (Z.to_nat (b - a + 1)) (fun sub => raw_entries E srv fuel n sub (0 + a) b) ltac:(lia) (entries E log a b)) as [Hr|(buf1 & n1 & Hr & H1 & H2)].
      + replace (0 + a)%Z with a by lia. apply raw_entries_ok; [lia | nia |]. rewrite firstn_length_le; [lia|]. rewrite skipn_length. lia.
      + rewrite entries_length. lia.
      + left. exact Hr.
      + right. exists buf1, n1. split; [exact Hr|]. split; [exact H1|]. rewrite H2. reflexivity.
    - assert (Hs1 : (sbs <= b - a + 1)%Z) by nia.
      destruct (batches_loop_ok fuel ltac:(lia) (Z.to_nat count) 0 n buf a ltac:(lia)) as [Hr|(buf1 & n1 & Hr & H1 & H2)].
      + rewrite Z2Nat.id by lia. lia.
      + cbn. symmetry. apply entries_nil. lia.
      + left. rewrite Hr. reflexivity.
      + rewrite Hr. rewrite Z2Nat.id, Z.add_0_l in H2 by lia. destruct (Z.leb_spec (count * sbs + a) b) as [Hle|Hgt].
        * destruct (on_slice_ok buf1 (Z.to_nat (count * sbs)) (Z.to_nat (b - a + 1)) (fun sub => raw_entries E srv fuel n1 sub (count * sbs + a) b) ltac:(lia) (entries E log (count * sbs + a) b)) as [Hr2|(buf2 & n2 & Hr2 & H3 & H4)].
          -- apply raw_entries_ok; [lia | lia |]. rewrite firstn_length_le; [lia|]. rewrite skipn_length. lia.
          -- rewrite entries_length. lia.
          -- left. exact Hr2.
          -- right. exists buf2, n2. split; [exact Hr2|]. split; [lia|]. rewrite H4, H2. rewrite (entries_app log a (a + count * sbs - 1) b) by lia. f_equal. f_equal. lia.
        * right. exists buf1, n1. split; [reflexivity|]. split; [exact H1|]. replace (b - a + 1)%Z with (count * sbs)%Z by lia. rewrite H2. f_equal. lia.
  Qed.
End Download.

(** A server that answers with nothing keeps the fetcher asking for ever. *)
Lemma raw_loop_starves E (srv : nat -> Z -> Z -> option (list E)) a b : (a <= b)%Z -> (forall n x y, srv n x y = Some []) ->
  forall fuel n buf, raw_loop E srv fuel n buf a b 0 = None.
Proof.
  intros Hab Hs. induction fuel as [|fuel IH]; intros n buf; [reflexivity|]. cbn [raw_loop].
  replace (0 <? b - a + 1)%Z with true by (symmetry; apply Z.ltb_lt; lia). rewrite Hs.
  assert (Hw : write E buf (Z.to_nat 0) [] = Some buf) by (unfold write; reflexivity). rewrite Hw. cbn [length Z.of_nat Z.add]. apply IH.
Qed.

(** ** Local files *)
Lemma get_put m k v x : get (put m k v) x = if Z.eqb x k then Some v else get m x.
Proof.
  induction m as [|[k' v'] m IH]; cbn; [reflexivity|]. destruct (Z.eqb_spec k k') as [->|Hn]; cbn.
  - destruct (Z.eqb_spec x k'); reflexivity.
  - destruct (Z.eqb_spec x k') as [->|Hx]; [|exact IH]. destruct (Z.eqb_spec k' k); [congruence | reflexivity].
Qed.
Lemma put_keys m k v : map fst (put m k v) = if existsb (Z.eqb k) (map fst m) then map fst m else map fst m ++ [k].
Proof.
  induction m as [|[k' v'] m IH]; cbn; [reflexivity|]. destruct (Z.eqb_spec k k') as [->|Hn]; cbn; [reflexivity|].
  rewrite IH. destruct (existsb (Z.eqb k) (map fst m)); reflexivity.
Qed.
Lemma get_keys m k : (exists v, get m k = Some v) <-> In k (map fst m).
Proof.
  induction m as [|[k' v'] m IH]; cbn; [split; [intros [v X]; discriminate X | intros []]|].
  destruct (Z.eqb_spec k k') as [->|Hn]; [split; [auto | intros _; eauto]|]. rewrite IH. split; [auto | intros [X|X]; [congruence | exact X]].
Qed.

Section Files.
  Variable files : list file.
  (** Consecutive files without gaps. *)
  Inductive gapless : Z -> list file -> Prop :=
  | gapless_nil s : gapless s []
  | gapless_cons f l : In f files -> gapless (fi_end f + 1) l -> gapless (fi_start f) (f :: l).
  (** The index after the last file. *)
  Definition ends (s : Z) (l : list file) : Z := match l with [] => s | _ => (fi_end (last l (mk_file 0 0 0)) + 1)%Z end.
  (** No file follows. *)
  Definition longest (s : Z) (l : list file) : Prop := gapless s l /\ forall f, In f files -> fi_start f <> ends s l.
  Hypothesis Huniq : NoDup (map fi_start files).
  Hypothesis Hup : forall f, In f files -> (fi_start f <= fi_end f)%Z.

  Lemma ends_cons s f l : ends s (f :: l) = ends (fi_end f + 1) l.
  Proof. unfold ends. destruct l as [|g l]; reflexivity. Qed.
  Lemma uniq f g : In f files -> In g files -> fi_start f = fi_start g -> f = g.
  Proof.
    clear Hup. induction files as [|x l IH]; [intros []|]. cbn in Huniq. inversion Huniq as [|? ? Hx Hn]; subst.
    intros [->|Hf] [->|Hg] E; [reflexivity | exfalso; apply Hx; rewrite E; apply in_map; exact Hg | exfalso; apply Hx; rewrite <- E; apply in_map; exact Hf | exact (IH Hn Hf Hg E)].
  Qed.
  Lemma gapless_app s l r : gapless s l -> gapless (ends s l) r -> gapless s (l ++ r).
  Proof.
    intros Hl. induction Hl as [s|f l Hf Hl IH]; [cbn; auto|]. rewrite ends_cons. intros Hr. cbn [app]. constructor; [exact Hf | exact (IH Hr)].
  Qed.
  Lemma ends_app s l r : ends s (l ++ r) = ends (ends s l) r.
  Proof. revert s. induction l as [|f l IH]; intros s; [reflexivity|]. cbn [app]. rewrite !ends_cons. apply IH. Qed.
  Lemma longest_unique s l r : longest s l -> longest s r -> l = r.
  Proof.
    intros [Hl Hml] [Hr Hmr]. revert r Hr Hmr. induction Hl as [s|f l Hf Hl IH]; intros r Hr Hmr.
    - inversion Hr as [|g r' Hg Hr']; subst; [reflexivity|]. exfalso. exact (Hml g Hg eq_refl).
    - inversion Hr as [|g r' Hg Hr' E]; subst; [exfalso; exact (Hmr f Hf eq_refl)|].
      assert (g = f) as -> by (apply uniq; auto). f_equal. rewrite ends_cons in Hml. apply IH; [exact Hml | exact Hr'|].
      rewrite ends_cons in Hmr. exact Hmr.
  Qed.
  (** Ends grow along a chain. *)
  Lemma gapless_up s l : gapless s l -> l <> [] -> (s < ends s l)%Z.
  Proof.
    intros Hl. induction Hl as [s|f l Hf Hl IH]; [congruence|]. intros _. rewrite ends_cons. pose proof (Hup f Hf). destruct l as [|g l]; [cbn; lia|].
    specialize (IH ltac:(discriminate)). lia.
  Qed.

  (** What the map holds during the loop. *)
  Definition sound (m : state_map) : Prop :=
    (forall k l, get m k = Some l -> l <> [] /\ gapless k l) /\
    (forall k, (exists l, get m k = Some l) <-> exists f, In f files /\ fi_start f = k).

  Definition above (s : Z) : nat := length (filter (fun f => (s <=? fi_start f)%Z) files).
  Lemma above_lt s t : (s < t)%Z -> (exists f, In f files /\ fi_start f = s) -> above t < above s.
  Proof.
    intros Hst (f & Hf & Ef). unfold above. clear Huniq Hup. induction files as [|g l IH]; [destruct Hf|]. cbn [filter].
    assert (Hle : forall l : list file, length (filter (fun f => (t <=? fi_start f)%Z) l) <= length (filter (fun f => (s <=? fi_start f)%Z) l)).
    { clear -Hst. induction l as [|g l IH]; [cbn; lia|]. cbn [filter]. destruct (Z.leb_spec t (fi_start g)), (Z.leb_spec s (fi_start g)); cbn [length]; lia. }
    destruct Hf as [->|Hf].
    - replace (t <=? fi_start f)%Z with false by (symmetry; apply Z.leb_gt; lia). replace (s <=? fi_start f)%Z with true by (symmetry; apply Z.leb_le; lia).
      cbn [length]. specialize (Hle l). lia.
    - specialize (IH Hf). destruct (Z.leb_spec t (fi_start g)), (Z.leb_spec s (fi_start g)); cbn [length]; lia.
  Qed.
  Lemma chain_longest m : sound m -> forall fuel s, above s < fuel -> exists l, chain fuel m s = Some l /\ longest s l.
  Proof.
    intros [Hg Hk]. induction fuel as [|fuel IH]; intros s Hf; [lia|]. cbn [chain]. destruct (get m s) as [l|] eqn:E.
    - destruct (Hg s l E) as [Hne Hl]. assert (Ee : ends s l = (fi_end (last l (mk_file 0 0 0)) + 1)%Z) by (destruct l; [congruence | reflexivity]).
      rewrite <- Ee. pose proof (gapless_up s l Hl Hne) as Hup'.
      destruct (IH (ends s l)) as (r & Hr & [Hgr Hmr]).
      { pose proof (above_lt s (ends s l) Hup' (proj1 (Hk s) ltac:(eauto))). lia. }
      rewrite Hr. exists (l ++ r). split; [reflexivity|]. split; [apply gapless_app; assumption|]. rewrite ends_app. exact Hmr.
    - exists []. split; [reflexivity|]. split; [constructor|]. intros f Hf' Ef. cbn in Ef.
      destruct (proj2 (Hk s)) as (l & X); [exists f; auto|]. congruence.
  Qed.
  Lemma above_le s : above s <= length files.
  Proof. unfold above. clear. induction files as [|f l IH]; cbn; [lia|]. destruct (s <=? fi_start f)%Z; cbn; lia. Qed.

  Lemma extend_ok fuel : length files < fuel -> forall ks m, sound m -> NoDup ks -> (forall k, In k ks -> exists f, In f files /\ fi_start f = k) ->
    exists m', extend fuel ks m = Some m' /\ sound m' /\
      (forall k, In k ks -> exists l, get m' k = Some l /\ longest k l) /\ (forall k, ~ In k ks -> get m' k = get m k).
  Proof.
    intros Hfu. induction ks as [|k ks IH]; intros m Hm Hn Hks.
    - exists m. split; [reflexivity|]. split; [exact Hm|]. split; [intros k [] | reflexivity].
    - cbn [extend]. inversion Hn as [|? ? Hk Hn']; subst. destruct (chain_longest m Hm fuel k) as (c & Hc & Hlc); [pose proof (above_le k); lia|]. rewrite Hc.
      destruct (Hks k (or_introl eq_refl)) as (f0 & Hf0 & Ef0).
      assert (Hcne : c <> []).
      { intros ->. destruct Hlc as [_ Hmx]. exact (Hmx f0 Hf0 Ef0). }
      assert (Hm' : sound (put m k c)).
      { destruct Hm as [Hg Hkk]. split.
        - intros x l. rewrite get_put. destruct (Z.eqb_spec x k) as [->|]; [|apply Hg]. intros X. injection X as <-. split; [exact Hcne | exact (proj1 Hlc)].
        - intros x. rewrite get_put. destruct (Z.eqb_spec x k) as [->|]; [|apply Hkk]. split; [intros _; exists f0; auto | intros _; eauto]. }
      destruct (IH (put m k c) Hm' Hn' ltac:(intros; apply Hks; right; assumption)) as (m' & He & Hs & H1 & H2).
      exists m'. split; [exact He|]. split; [exact Hs|]. split.
      + intros x [<-|Hx]; [|exact (H1 x Hx)]. exists c. split; [|exact Hlc]. rewrite (H2 k Hk), get_put, Z.eqb_refl. reflexivity.
      + intros x Hx. rewrite (H2 x ltac:(intros X; apply Hx; right; exact X)), get_put. destruct (Z.eqb_spec x k) as [->|]; [exfalso; apply Hx; left; reflexivity | reflexivity].
  Qed.
End Files.

Lemma singles_spec fs : forall m, NoDup (map fst m) ->
  match singles fs m with
  | None => ~ NoDup (map fst m ++ map fi_start fs)
  | Some m' => NoDup (map fst m ++ map fi_start fs) /\ map fst m' = map fst m ++ map fi_start fs /\
      forall k, get m' k = match get m k with Some v => Some v | None => match find (fun f => Z.eqb (fi_start f) k) fs with Some f => Some [f] | None => None end end
  end.
Proof.
  induction fs as [|f fs IH]; intros m Hn; cbn [singles].
  - cbn. rewrite app_nil_r. split; [exact Hn|]. split; [reflexivity|]. intros k. destruct (get m k); reflexivity.
  - destruct (get m (fi_start f)) as [v|] eqn:E.
    + intros X. assert (In (fi_start f) (map fst m)) by (apply get_keys; eauto). cbn in X. apply NoDup_remove_2 in X. apply X. apply in_or_app. left. assumption.
    + assert (Hni : ~ In (fi_start f) (map fst m)) by (intros X; apply get_keys in X as (v & X); congruence).
      assert (Hk : map fst (put m (fi_start f) [f]) = map fst m ++ [fi_start f]).
      { rewrite put_keys. destruct (existsb (Z.eqb (fi_start f)) (map fst m)) eqn:X; [|reflexivity]. exfalso. apply Hni.
        apply existsb_exists in X as (y & Hy & Ey). apply Z.eqb_eq in Ey. subst y. exact Hy. }
      assert (Hn' : NoDup (map fst (put m (fi_start f) [f]))).
      { rewrite Hk. apply NoDup_rev in Hn. rewrite <- (rev_involutive (map fst m ++ [fi_start f])). apply NoDup_rev. rewrite rev_app_distr. cbn. constructor; [rewrite <- in_rev; exact Hni | exact Hn]. }
      specialize (IH _ Hn'). rewrite Hk, <- app_assoc in IH. cbn [app] in IH. destruct (singles fs (put m (fi_start f) [f])) as [m'|]; [|exact IH].
      destruct IH as (H1 & H2 & H3). split; [exact H1|]. split; [exact H2|]. intros k. rewrite H3, get_put. cbn [find].
      rewrite (Z.eqb_sym (fi_start f) k). destruct (Z.eqb_spec k (fi_start f)) as [->|]; [rewrite E; reflexivity | reflexivity].
Qed.

Lemma initialize_ok files fuel order : (forall l, Permutation (order l) l) -> (forall f, In f files -> (fi_start f <= fi_end f)%Z) -> length files < fuel ->
  (NoDup (map fi_start files) /\ exists m, initialize fuel order files = Some (Some m) /\
     forall s, (exists f, In f files /\ fi_start f = s) /\ (exists l, get m s = Some l /\ longest files s l) \/
               (forall f, In f files -> fi_start f <> s) /\ get m s = None) \/
  (~ NoDup (map fi_start files) /\ initialize fuel order files = Some None).
Proof.
  intros Hord Hup Hfu. unfold initialize. pose proof (singles_spec files [] (NoDup_nil Z)) as Hs. cbn [map app get] in Hs.
  destruct (singles files []) as [m|]; [|right; auto]. left. destruct Hs as (Hn & Hk & Hg). split; [exact Hn|].
  assert (Hfind : forall k, match find (fun f => Z.eqb (fi_start f) k) files with Some f => In f files /\ fi_start f = k | None => forall f, In f files -> fi_start f <> k end).
  { intros k. destruct (find _ files) as [f|] eqn:E.
    - apply find_some in E as [E1 E2]. apply Z.eqb_eq in E2. auto.
    - intros f Hf X. apply (find_none _ _ E) in Hf. rewrite X, Z.eqb_refl in Hf. discriminate Hf. }
  assert (Hm : sound files m).
  { split.
    - intros k l. rewrite Hg. specialize (Hfind k). destruct (find _ files) as [f|]; [|discriminate]. intros X. injection X as <-. destruct Hfind as [Hf <-].
      split; [discriminate|]. constructor; [exact Hf | constructor].
    - intros k. rewrite Hg. specialize (Hfind k). destruct (find _ files) as [f|].
      + split; [intros _; exists f; exact Hfind | eauto].
      + split; [intros [l X]; discriminate X | intros (f & Hf & Ef); exfalso; exact (Hfind f Hf Ef)]. }
  assert (Hkeys : forall k, In k (order (map fst m)) <-> exists f, In f files /\ fi_start f = k).
  { intros k. split.
    - intros X. apply (Permutation_in _ (Hord _)) in X. rewrite Hk in X. apply in_map_iff in X as (f & Ef & Hf). eauto.
    - intros (f & Hf & Ef). apply (Permutation_in _ (Permutation_sym (Hord _))). rewrite Hk. apply in_map_iff. eauto. }
  destruct (extend_ok files Hup fuel Hfu (order (map fst m)) m Hm) as (m' & He & _ & H1 & H2).
  - apply (Permutation_NoDup (Permutation_sym (Hord _))). rewrite Hk. exact Hn.
  - intros k. apply Hkeys.
  - exists m'. rewrite He. split; [reflexivity|]. intros s. destruct (in_dec Z.eq_dec s (order (map fst m))) as [Hin|Hnin].
    + left. split; [apply Hkeys; exact Hin | exact (H1 s Hin)].
    + right. assert (Hno : forall f, In f files -> fi_start f <> s) by (intros f Hf X; apply Hnin; apply Hkeys; eauto). split; [exact Hno|].
      rewrite (H2 s Hnin), Hg. specialize (Hfind s). destruct (find _ files) as [f|]; [destruct Hfind as [Hf Ef]; exfalso; exact (Hno f Hf Ef) | reflexivity].
Qed.

(** ** The state that is reported, and the files that are then read *)
Section Target.
  Variable files : list file.
  Hypothesis Hup : forall f, In f files -> (fi_start f <= fi_end f)%Z.

  Lemma target_spec size max : forall es s acc first, gapless files s es -> acc = s -> (size <= s)%Z ->
    exists p q, es = p ++ q /\ target_size first es size max acc = ends s p /\
      (first = true -> es <> [] -> p <> []) /\
      (forall p1 e p2, p = p1 ++ e :: p2 -> (first = true /\ p1 = []) \/ (fi_end e - size + 1 <= max)%Z) /\
      (forall e q', q = e :: q' -> (first = true -> p <> []) /\ (max < fi_end e - size + 1)%Z).
  Proof.
    induction es as [|e es IH]; intros s acc first Hg Ha Hs.
    - exists [], []. split; [reflexivity|]. split; [exact Ha|]. split; [congruence|]. split; [intros p1 e p2 X; destruct p1; discriminate X | discriminate].
    - inversion Hg as [|? ? Hf Hg']; subst. cbn [target_size]. destruct (negb first && (max <? fi_end e - size + 1)%Z) eqn:E.
      + apply andb_true_iff in E as [E1 E2]. apply negb_true_iff in E1. apply Z.ltb_lt in E2. exists [], (e :: es). split; [reflexivity|]. split; [reflexivity|].
        subst first. split; [discriminate|]. split; [intros p1 x p2 X; destruct p1; discriminate X|]. intros x q' X. injection X as <- <-. split; [discriminate | exact E2].
      + destruct (IH (fi_end e + 1)%Z (fi_end e + 1)%Z false Hg' eq_refl) as (p & q & -> & H2 & _ & H4 & H5); [pose proof (Hup e Hf); lia|].
        exists (e :: p), q. split; [reflexivity|]. split; [rewrite ends_cons; exact H2|]. split; [discriminate|]. split.
        * intros p1 x p2 X. destruct p1 as [|y p1]; injection X as <- X.
          -- apply andb_false_iff in E as [E|E]; [left; split; [destruct first; [reflexivity | discriminate E] | reflexivity] | right; apply Z.ltb_ge in E; exact E].
          -- right. destruct (H4 p1 x p2 X) as [[Y _]|Y]; [discriminate Y | exact Y].
        * intros x q' ->. split; [discriminate | exact (proj2 (H5 x q' eq_refl))].
  Qed.
  Lemma ends_grow s l f : gapless files s l -> In f l -> (fi_end f < ends s l)%Z.
  Proof.
    intros Hl. induction Hl as [s|g l Hg Hl IH]; [intros []|]. rewrite ends_cons. intros [<-|Hin].
    - destruct l as [|h l]; [cbn; lia|]. pose proof (gapless_up files Hup _ _ Hl ltac:(discriminate)). lia.
    - exact (IH Hin).
  Qed.
  Lemma gapless_app_inv s p q : gapless files s (p ++ q) -> gapless files s p /\ gapless files (ends s p) q.
  Proof.
    revert s. induction p as [|f p IH]; intros s Hg; [split; [constructor | exact Hg]|]. cbn [app] in Hg. inversion Hg; subst.
    destruct (IH _ H3) as [H5 H6]. split; [constructor; assumption|]. rewrite ends_cons. exact H6.
  Qed.
  Lemma upto_spec s p q : gapless files s (p ++ q) -> upto (p ++ q) (ends s p - 1) = p.
  Proof.
    intros Hg. destruct (gapless_app_inv s p q Hg) as [Hp Hq].
    assert (G : forall p', (forall f, In f p' -> In f p) -> upto (p' ++ q) (ends s p - 1) = p').
    { induction p' as [|f p' IH]; intros Hin.
      - cbn. destruct q as [|g q]; [reflexivity|]. cbn. inversion Hq as [|? ? Hgf _ Eg]; subst. pose proof (Hup g Hgf).
        replace (fi_start g - 1 <? fi_end g)%Z with true by (symmetry; apply Z.ltb_lt; lia). reflexivity.
      - cbn. pose proof (ends_grow s p f Hp (Hin f (or_introl eq_refl))). replace (ends s p - 1 <? fi_end f)%Z with false by (symmetry; apply Z.ltb_ge; lia).
        f_equal. apply IH. intros g Hg'. apply Hin. right. exact Hg'. }
    apply G. auto.
  Qed.
End Target.
