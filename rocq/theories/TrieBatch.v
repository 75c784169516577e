(** Sorted batches: splitting at a bit, and re-inserting the key of a one-key subtree. *)
From Coq Require Import Permutation.
From Verif Require Import Base TrieModel TrieSpec BaseLemmas TrieMaps.

(** ** increasing *)
Lemma increasing_cons k ks :
  increasing (k :: ks) <-> (forall x, In x ks -> bcmp k x = Lt) /\ increasing ks.
Proof.
  revert k. induction ks as [|a ks IH]; intros k.
  - simpl. split; [intros _; split; [intros x []|exact I] | auto].
  - change (increasing (k :: a :: ks)) with (bcmp k a = Lt /\ increasing (a :: ks)). split.
    + intros [Hka Hs]. split; [|exact Hs]. intros x [<-|Hx]; [exact Hka|].
      apply IH in Hs as [Ha _]. eapply bcmp_trans; eauto.
    + intros [Hf Hs]. split; [apply Hf; simpl; auto | exact Hs].
Qed.
Lemma increasing_app a b :
  increasing (a ++ b) <-> increasing a /\ increasing b /\ (forall x y, In x a -> In y b -> bcmp x y = Lt).
Proof.
  induction a as [|k a IH]; simpl app.
  - split; [intros Hb; split; [exact I|]; split; [exact Hb | intros x y []] | tauto].
  - rewrite !increasing_cons, IH. split.
    + intros (Hf & Ha & Hb & Hab). split; [split; [intros x Hx; apply Hf, in_app_iff; auto | exact Ha]|].
      split; [exact Hb|]. intros x y [<-|Hx] Hy; [apply Hf, in_app_iff; auto | auto].
    + intros ((Hf & Ha) & Hb & Hab). split.
      * intros x Hx. apply in_app_iff in Hx as [Hx|Hx]; [auto | apply Hab; simpl; auto].
      * split; [exact Ha|]. split; [exact Hb|]. intros x y Hx Hy. apply Hab; simpl; auto.
Qed.
Lemma increasing_NoDup ks : increasing ks -> NoDup ks.
Proof.
  induction ks as [|k ks IH]; intros Hs; [constructor|]. apply increasing_cons in Hs as [Hf Hs].
  constructor; [|auto]. intros Hi. apply Hf in Hi. apply bcmp_lt_irrefl in Hi. exact Hi.
Qed.
Lemma increasing_filter (f : bytes * bytes -> bool) (kvs : kvmap) :
  increasing (keys kvs) -> increasing (keys (filter f kvs)).
Proof.
  induction kvs as [|[k v] kvs IH]; [auto|]. simpl keys. rewrite increasing_cons. intros [Hf Hs].
  simpl. destruct (f (k, v)); [|auto]. simpl keys. rewrite increasing_cons. split; [|auto].
  intros x Hx. apply Hf. apply in_map_iff in Hx as (kv & <- & Hx). apply filter_In in Hx as [Hx _].
  apply in_map. exact Hx.
Qed.

(** ** splitKeys *)
Lemma split_keys_any n (kvs : kvmap) :
  increasing (keys kvs) -> share n (keys kvs) -> (forall a b, In a (keys kvs) -> In b (keys kvs) -> length a = length b) ->
  split_keys kvs n = (side n false kvs, side n true kvs).
Proof.
  induction kvs as [|[k v] kvs IH]; intros Hs Hsh Hl; [reflexivity|].
  simpl keys in *. apply increasing_cons in Hs as [Hf Hs].
  cbn [split_keys fst]. destruct (bit k n) eqn:Hb.
  - (* the bit is set here and from here on *)
    assert (Hall : forall x, In x (keys kvs) -> bit x n = true).
    { intros x Hx. pose proof (Hf x Hx) as Hlt.
      pose proof (bit_lt_mono k x n) as Hmono.
      rewrite Hb in Hmono. apply Hmono; auto.
      - apply Hl; simpl; auto.
      - apply Hsh; simpl; auto. }
    unfold side. simpl. rewrite Hb. simpl. f_equal.
    + symmetry. clear IH Hsh Hl Hf Hs. induction kvs as [|[k' v'] kvs IH]; [reflexivity|]. simpl.
      rewrite Hall by (simpl; auto). simpl. apply IH. intros x Hx. apply Hall. simpl. auto.
    + f_equal. symmetry. clear IH Hsh Hl Hf Hs. induction kvs as [|[k' v'] kvs IH]; [reflexivity|]. simpl.
      rewrite Hall by (simpl; auto). simpl. f_equal. apply IH. intros x Hx. apply Hall. simpl. auto.
  - rewrite IH; auto.
    + unfold side. simpl. rewrite Hb. reflexivity.
    + eapply share_incl; [|exact Hsh]. intros x Hx. simpl. auto.
    + intros a b Ha Hbb. apply Hl; simpl; auto.
Qed.
Lemma split_keys_side n (kvs : kvmap) :
  increasing (keys kvs) -> share n (keys kvs) -> lens (keys kvs) ->
  split_keys kvs n = (side n false kvs, side n true kvs).
Proof. intros Hs Hsh Hl. apply split_keys_any; auto. intros a b Ha Hb. rewrite !Hl; auto. Qed.

(** ** maybeAddShortcutToKV *)
Definition smaller_all (sk : bytes) (l : kvmap) : Prop := forall x, In x (keys l) -> bcmp x sk = Lt.
Definition larger_all (sk : bytes) (l : kvmap) : Prop := forall x, In x (keys l) -> bcmp sk x = Lt.

Lemma bcmp_Lt_neq a b : bcmp a b = Lt -> a <> b.
Proof. intros Hq ->. apply bcmp_lt_irrefl in Hq. exact Hq. Qed.

(** a run over larger keys before any smaller one was met *)
Lemma loop_no_higher all pre post acc sk sv : larger_all sk post ->
  maybe_add_loop all pre post acc false sk sv = acc.
Proof.
  revert pre. induction post as [|[k v] post IH]; intros pre Hl; [reflexivity|].
  cbn [maybe_add_loop].
  assert (Hk : bcmp sk k = Lt) by (apply Hl; simpl; auto).
  destruct (beqb_spec sk k) as [He|He]; [subst; apply bcmp_lt_irrefl in Hk; contradiction|].
  rewrite Hk. cbn [andb negb]. apply IH. intros x Hx. apply Hl. simpl. auto.
Qed.

(** a run over smaller keys *)
Lemma loop_smaller all pre sm post acc hi sk sv : smaller_all sk sm ->
  maybe_add_loop all pre (sm ++ post) acc hi sk sv =
  maybe_add_loop all (pre ++ sm) post acc (match sm with [] => hi | _ => true end) sk sv.
Proof.
  revert pre hi. induction sm as [|[k v] sm IH]; intros pre hi Hl.
  - rewrite app_nil_r. reflexivity.
  - assert (Hk : bcmp k sk = Lt) by (apply Hl; simpl; auto).
    assert (Hk' : bcmp sk k = Gt) by (apply bcmp_gt; exact Hk).
    cbn [app maybe_add_loop].
    destruct (beqb_spec sk k) as [He|He]; [subst; apply bcmp_lt_irrefl in Hk; contradiction|].
    rewrite Hk'. cbn [andb negb].
    assert (Hs : smaller_all sk sm) by (intros x Hx; apply Hl; simpl; auto).
    destruct hi; cbn [andb negb]; rewrite IH by exact Hs; rewrite <- app_assoc; cbn [app];
    destruct sm; reflexivity.
Qed.

(** A sorted list splits at [sk]. *)
Lemma split_at sk (kvs : kvmap) : increasing (keys kvs) ->
  exists sm eq la, kvs = sm ++ eq ++ la /\ smaller_all sk sm /\ larger_all sk la /\
    (eq = [] \/ exists v, eq = [(sk, v)]).
Proof.
  induction kvs as [|[k v] kvs IH]; intros Hs.
  - exists [], [], []. split; [reflexivity|]. split; [intros x []|]. split; [intros x [] | auto].
  - simpl keys in Hs. apply increasing_cons in Hs as [Hf Hs].
    destruct (bcmp k sk) eqn:Hc.
    + apply bcmp_eq in Hc. subst k. exists [], [(sk, v)], kvs. split; [reflexivity|].
      split; [intros x []|]. split; [exact Hf|]. right. eauto.
    + destruct (IH Hs) as (sm & eq & la & -> & Hsm & Hla & Heq). exists ((k, v) :: sm), eq, la.
      split; [reflexivity|]. split; [|auto]. intros x [<-|Hx]; [exact Hc | auto].
    + apply bcmp_gt in Hc. exists [], [], ((k, v) :: kvs). split; [reflexivity|].
      split; [intros x []|]. split; [|auto]. intros x [<-|Hx]; [exact Hc|]. eapply bcmp_trans; eauto.
Qed.

Lemma last_app_cons {A} (a : list A) x b d : last (a ++ x :: b) d = last (x :: b) d.
Proof.
  induction a as [|y a IH]; [reflexivity|]. simpl app. rewrite <- IH.
  destruct (a ++ x :: b) eqn:Hq; [destruct a; discriminate|]. reflexivity.
Qed.
Lemma last_In {A} (x : A) l d : In (last (x :: l) d) (x :: l).
Proof.
  revert x. induction l as [|y l IH]; intros x; [simpl; auto|].
  change (last (x :: y :: l) d) with (last (y :: l) d). right. apply IH.
Qed.

(** What the code does on a sorted batch, in all cases but the straddled deletion. *)
Lemma maybe_add_cases sm eq la sk sv :
  increasing (keys (sm ++ eq ++ la)) -> smaller_all sk sm -> larger_all sk la ->
  sm ++ eq ++ la <> [] ->
  (eq = [] -> maybe_add_shortcut (sm ++ eq ++ la) sk sv = sm ++ [(sk, sv)] ++ la) /\
  (forall v, eq = [(sk, v)] -> v <> DefaultLeaf ->
     maybe_add_shortcut (sm ++ eq ++ la) sk sv = sm ++ eq ++ la) /\
  (eq = [(sk, DefaultLeaf)] -> sm = [] \/ la = [] ->
     maybe_add_shortcut (sm ++ eq ++ la) sk sv = sm ++ la).
Proof.
  intros Hinc Hsm Hla Hne.
  assert (Hhd_sm : sm <> [] -> bcmp sk (fst (hd ([], []) (sm ++ eq ++ la))) = Gt).
  { destruct sm as [|[k v] sm]; [congruence|]. intros _. simpl. apply bcmp_gt. apply Hsm. simpl. auto. }
  assert (Hlast_la : la <> [] -> bcmp sk (fst (last (sm ++ eq ++ la) ([], []))) = Lt).
  { destruct la as [|[k v] la]; [congruence|]. intros _. rewrite app_assoc, last_app_cons.
    apply Hla. apply in_map. apply last_In. }
  unfold maybe_add_shortcut. split; [|split].
  - intros ->. cbn [app] in *. destruct sm as [|kv sm].
    + destruct la as [|[k v] la]; [exfalso; apply Hne; reflexivity|]. cbn [app hd fst].
      rewrite (Hla k) by (simpl; auto). reflexivity.
    + rewrite Hhd_sm by discriminate. destruct la as [|[k v] la].
      * rewrite app_nil_r. cbn [app].
        assert (Hl : bcmp sk (fst (last (kv :: sm) ([], []))) = Gt).
        { apply bcmp_gt. apply Hsm. apply in_map. apply last_In. }
        rewrite Hl. reflexivity.
      * rewrite Hlast_la by discriminate.
        rewrite loop_smaller by exact Hsm. cbn [app maybe_add_loop].
        assert (Hk : bcmp sk k = Lt) by (apply Hla; simpl; auto).
        destruct (beqb_spec sk k) as [He|He]; [subst; apply bcmp_lt_irrefl in Hk; contradiction|].
        rewrite Hk. reflexivity.
  - intros v -> Hv. 
    assert (Hnl : match bcmp sk (fst (hd ([], []) (sm ++ [(sk, v)] ++ la))) with Lt => true | _ => false end = false).
    { destruct sm as [|kv sm]; [cbn; rewrite bcmp_refl; reflexivity|]. rewrite Hhd_sm by discriminate. reflexivity. }
    assert (Hng : match bcmp sk (fst (last (sm ++ [(sk, v)] ++ la) ([], []))) with Gt => true | _ => false end = false).
    { destruct la as [|kv la]; [|rewrite Hlast_la by discriminate; reflexivity].
      rewrite app_nil_r. rewrite last_app_cons. cbn. rewrite bcmp_refl. reflexivity. }
    rewrite Hnl, Hng. rewrite loop_smaller by exact Hsm. cbn [app maybe_add_loop].
    rewrite beqb_refl. cbn [andb].
    destruct (beqb_spec DefaultLeaf v) as [He|He]; [congruence|]. reflexivity.
  - intros -> Hor.
    assert (Hnl : match bcmp sk (fst (hd ([], []) (sm ++ [(sk, DefaultLeaf)] ++ la))) with Lt => true | _ => false end = false).
    { destruct sm as [|kv sm]; [cbn; rewrite bcmp_refl; reflexivity|]. rewrite Hhd_sm by discriminate. reflexivity. }
    assert (Hng : match bcmp sk (fst (last (sm ++ [(sk, DefaultLeaf)] ++ la) ([], []))) with Gt => true | _ => false end = false).
    { destruct la as [|kv la]; [|rewrite Hlast_la by discriminate; reflexivity].
      rewrite app_nil_r. rewrite last_app_cons. cbn. rewrite bcmp_refl. reflexivity. }
    rewrite Hnl, Hng. rewrite loop_smaller by exact Hsm. cbn [app maybe_add_loop].
    rewrite beqb_refl, (beqb_refl DefaultLeaf), bcmp_refl. cbn [andb negb].
    destruct Hor as [->| ->].
    + cbn [app]. rewrite loop_no_higher by exact Hla. reflexivity.
    + rewrite app_nil_r. destruct sm; cbn [negb andb maybe_add_loop app]; rewrite ?app_nil_r; reflexivity.
Qed.

Lemma straddled_side n b m batch :
  share n (keys m ++ keys batch) -> straddled (side n b m) (side n b batch) -> straddled m batch.
Proof.
  intros Hsh (j & d & k1 & k2 & Hd & Hdm & H1 & H2 & L1 & L2 & A1 & A2 & Hu).
  apply in_side in Hd as [Hd Hdb]. apply in_side_keys in Hdm as [Hdm _], H1 as [H1 Hb1], H2 as [H2 Hb2].
  assert (Hfull : forall x y, In x (keys m ++ keys batch) -> In y (keys m ++ keys batch) ->
            bit x n = b -> bit y n = b -> agree j x y -> agree (max j (S n)) x y).
  { intros x y Hx Hy Hbx Hby Ha i Hi. destruct (Nat.lt_ge_cases i j) as [Hij|Hij]; [apply Ha; exact Hij|].
    destruct (Nat.lt_ge_cases i n) as [Hin|Hin]; [apply Hsh; auto|].
    replace i with n by lia. congruence. }
  assert (Hin : forall x, In x (keys batch) -> In x (keys m ++ keys batch)) by (intros; apply in_app_iff; auto).
  assert (Hinm : forall x, In x (keys m) -> In x (keys m ++ keys batch)) by (intros; apply in_app_iff; auto).
  exists (max j (S n)), d, k1, k2. do 6 (split; [assumption|]).
  split; [apply Hfull; auto|]. split; [apply Hfull; auto|].
  intros x Hx Ha. apply Hu.
  - apply in_side_keys. split; [exact Hx|]. rewrite <- Hdb. apply Ha. lia.
  - eapply agree_le; [|exact Ha]. lia.
Qed.

Lemma effective_side n b m batch : effective m batch -> effective (side n b m) (side n b batch).
Proof.
  intros He k v Hi. apply in_side in Hi as [Hi Hb]. destruct (He k v Hi) as [H1 H2]. split.
  - intros Hv Hq. apply (H1 Hv). unfold side in Hq.
    rewrite (lookup_filter_key (fun x => Bool.eqb (bit x n) b)) in Hq.
    destruct (Bool.eqb (bit k n) b); [exact Hq | discriminate].
  - intros Hv. apply in_side_keys. auto.
Qed.

Definition batch_vals (batch : kvmap) : Prop :=
  forall k v, In (k, v) batch -> length v = HashLength \/ v = DefaultLeaf.
Lemma batch_vals_side n b batch : batch_vals batch -> batch_vals (side n b batch).
Proof. intros Hv k v Hi. apply in_side in Hi as [Hi _]. eauto. Qed.

Lemma vals_ok_over m batch : vals_ok m -> batch_vals batch -> vals_ok (over m batch).
Proof.
  intros Hm Hb k v Hi. apply in_over in Hi as [[Hi _]|[Hi Hne]]; [eauto|].
  destruct (Hb k v Hi); [assumption|contradiction].
Qed.

(** An effective batch changes the map. *)
Lemma effective_changes m batch : NoDup (keys m) -> NoDup (keys batch) -> batch <> [] -> effective m batch ->
  ~ Permutation (over m batch) m.
Proof.
  intros Hnm Hnb Hne He Hp. destruct batch as [|[k v] batch]; [congruence|].
  destruct (He k v) as [H1 H2]; [simpl; auto|].
  pose proof (perm_lookup _ _ (over_NoDup _ _ Hnm Hnb) Hp k) as Hq.
  rewrite over_lookup in Hq by exact Hnb. unfold batch_effect in Hq. cbn [lookup] in Hq.
  rewrite beqb_refl in Hq. destruct (beqb_spec v DefaultLeaf) as [->|Hv].
  - symmetry in Hq. apply lookup_None in Hq. auto.
  - symmetry in Hq. apply (H1 Hv). exact Hq.
Qed.

Lemma over_nil_r m : over m [] = m.
Proof.
  unfold over. cbn [filter]. rewrite app_nil_r. induction m as [|kv m IH]; [reflexivity|].
  cbn [filter keys map mem existsb negb]. f_equal. exact IH.
Qed.

Lemma filter_all {A} (f : A -> bool) l : (forall x, In x l -> f x = true) -> filter f l = l.
Proof.
  induction l as [|x l IH]; intros Hf; [reflexivity|]. simpl. rewrite Hf by (simpl; auto). f_equal. apply IH.
  intros y Hy. apply Hf. simpl. auto.
Qed.

(** Re-inserting the key of a one-key subtree: the new batch, applied to the empty map, gives the same result as
    the old batch applied to that key. *)
Lemma maybe_add_ok sk sv kvs :
  kvs <> [] -> increasing (keys kvs) -> effective [(sk, sv)] kvs ->
  (forall v, In (sk, v) kvs -> v = DefaultLeaf ->
     (forall x, In x (keys kvs) -> bcmp x sk <> Lt) \/ (forall x, In x (keys kvs) -> bcmp sk x <> Lt)) ->
  sv <> DefaultLeaf ->
  let kvs' := maybe_add_shortcut kvs sk sv in
  increasing (keys kvs') /\ incl (keys kvs') (sk :: keys kvs) /\
  (forall k v, In (k, v) kvs' -> v <> DefaultLeaf /\ (In (k, v) kvs \/ (k, v) = (sk, sv))) /\
  Permutation kvs' (over [(sk, sv)] kvs).
Proof.
  intros Hne Hinc Heff Hstr Hsv kvs'.
  assert (Hdel : forall k v, In (k, v) kvs -> v = DefaultLeaf -> k = sk).
  { intros k v Hi Hv. destruct (Heff k v Hi) as [_ H2]. destruct (H2 Hv) as [Hk|[]]. auto. }
  assert (Hcase : exists sm eq la, kvs = sm ++ eq ++ la /\ smaller_all sk sm /\ larger_all sk la /\
    (eq = [] /\ kvs' = sm ++ [(sk, sv)] ++ la \/
     (exists v, eq = [(sk, v)] /\ v <> DefaultLeaf /\ kvs' = sm ++ eq ++ la) \/
     (eq = [(sk, DefaultLeaf)] /\ kvs' = sm ++ la))).
  { destruct (split_at sk kvs Hinc) as (sm & eq & la & Hkvs & Hsm & Hla & Heq).
    exists sm, eq, la. split; [exact Hkvs|]. split; [exact Hsm|]. split; [exact Hla|].
    unfold kvs'. rewrite Hkvs in Hinc, Hne |- *.
    destruct (maybe_add_cases sm eq la sk sv Hinc Hsm Hla Hne) as (C1 & C2 & C3).
    destruct Heq as [->|(v & ->)].
    - left. split; [reflexivity | apply C1; reflexivity].
    - right. destruct (beqb_spec v DefaultLeaf) as [->|Hv].
      + right. split; [reflexivity|]. apply C3; [reflexivity|].
        destruct (Hstr DefaultLeaf) as [Hno|Hno].
        * rewrite Hkvs. rewrite !in_app_iff. simpl. auto.
        * reflexivity.
        * left. destruct sm as [|[k v] sm]; [reflexivity|]. exfalso. apply (Hno k).
          -- rewrite Hkvs. simpl. auto.
          -- apply Hsm. simpl. auto.
        * right. destruct la as [|[k v] la]; [reflexivity|]. exfalso. apply (Hno k).
          -- rewrite Hkvs. apply in_map_iff. exists (k, v). split; [reflexivity|]. rewrite !in_app_iff. simpl. auto.
          -- apply Hla. simpl. auto.
      + left. exists v. split; [reflexivity|]. split; [exact Hv|]. apply (C2 v); auto. }
  destruct Hcase as (sm & eq & la & Hkvs & Hsm & Hla & Hc).
  assert (Hinc' : increasing (keys kvs')).
  { rewrite Hkvs in Hinc. unfold keys in *. rewrite !map_app in Hinc.
    destruct Hc as [(-> & ->)|[(v & -> & Hv & ->)|(-> & ->)]]; rewrite ?map_app.
    - cbn [map app] in *. rewrite increasing_app in Hinc |- *. destruct Hinc as (I1 & I2 & I3).
      split; [exact I1|]. cbn [fst]. split.
      + apply increasing_cons. split; [exact Hla | exact I2].
      + intros x y Hx [<-|Hy]; [apply Hsm; exact Hx | auto].
    - exact Hinc.
    - rewrite increasing_app in Hinc |- *. destruct Hinc as (I1 & I2 & I3).
      apply increasing_app in I2 as (_ & I2 & _). split; [exact I1|]. split; [exact I2|].
      intros x y Hx Hy. apply I3; [exact Hx | apply in_app_iff; auto]. }
  assert (Hin : forall k v, In (k, v) kvs' -> v <> DefaultLeaf /\ (In (k, v) kvs \/ (k, v) = (sk, sv))).
  { intros k v Hi. rewrite Hkvs.
    assert (Hd : In (k, v) sm \/ In (k, v) la -> v <> DefaultLeaf).
    { intros Ho Hv. assert (k = sk).
      { eapply Hdel; [|exact Hv]. rewrite Hkvs, !in_app_iff. tauto. }
      subst k. destruct Ho as [Ho|Ho]; apply in_keys in Ho.
      - apply Hsm in Ho. apply bcmp_lt_irrefl in Ho. exact Ho.
      - apply Hla in Ho. apply bcmp_lt_irrefl in Ho. exact Ho. }
    destruct Hc as [(-> & Hk')|[(v0 & -> & Hv & Hk')|(-> & Hk')]]; rewrite Hk' in Hi; rewrite !in_app_iff in Hi |- *.
    - destruct Hi as [Hi|[[Hi|[]]|Hi]]; [split; [auto|tauto]| |split; [auto|tauto]].
      injection Hi as <- <-. split; [exact Hsv | auto].
    - destruct Hi as [Hi|[[Hi|[]]|Hi]]; [split; [auto|tauto]| |split; [auto|tauto]].
      injection Hi as <- <-. split; [exact Hv|]. simpl. auto.
    - destruct Hi as [Hi|Hi]; (split; [auto|]); rewrite ?in_app_iff; tauto. }
  split; [exact Hinc'|]. split; [|split; [exact Hin|]].
  - intros k Hk. apply in_map_iff in Hk as ([k' v] & <- & Hi). apply Hin in Hi as [_ [Hi|Hi]].
    + right. apply in_keys in Hi. exact Hi.
    + left. injection Hi as -> _. reflexivity.
  - assert (Hnd : NoDup (keys kvs)) by (apply increasing_NoDup; exact Hinc).
    assert (Hnd' : NoDup (keys kvs')) by (apply increasing_NoDup; exact Hinc').
    apply NoDup_Permutation.
    + apply NoDup_keys_NoDup. exact Hnd'.
    + apply NoDup_keys_NoDup. apply over_NoDup; [|exact Hnd]. repeat constructor. simpl. tauto.
    + intros [k v]. rewrite in_over. split.
      * intros Hi. pose proof (Hin k v Hi) as [Hv [Ho|Ho]]; [right; auto|].
        injection Ho as -> ->.
        destruct (in_dec (list_eq_dec Byte.byte_eq_dec) sk (keys kvs)) as [Hs|Hs].
        -- (* then the batch has its own value for sk and keeps it *)
           right. split; [|exact Hv]. rewrite Hkvs.
           destruct Hc as [(-> & Hk')|[(v0 & -> & Hv0 & Hk')|(-> & Hk')]].
           ++ exfalso. rewrite Hkvs in Hs. unfold keys in Hs. rewrite !map_app, !in_app_iff in Hs.
              destruct Hs as [Hs|[[]|Hs]]; [apply Hsm in Hs | apply Hla in Hs]; apply bcmp_lt_irrefl in Hs; exact Hs.
           ++ rewrite Hk' in Hi. exact Hi.
           ++ rewrite Hk' in Hi. rewrite !in_app_iff in *. tauto.
        -- left. split; [simpl; auto | exact Hs].
      * intros [[[Hi|[]] Hnk]|[Hi Hv]].
        -- injection Hi as <- <-. destruct Hc as [(-> & ->)|[(v0 & He & Hv0 & Hk')|(He & Hk')]].
           ++ rewrite !in_app_iff. simpl. auto.
           ++ exfalso. apply Hnk. rewrite Hkvs, He. unfold keys. rewrite !map_app, !in_app_iff. simpl. auto.
           ++ exfalso. apply Hnk. rewrite Hkvs, He. unfold keys. rewrite !map_app, !in_app_iff. simpl. auto.
        -- destruct Hc as [(-> & ->)|[(v0 & -> & Hv0 & ->)|(-> & ->)]]; rewrite Hkvs in Hi;
           rewrite !in_app_iff in *; try tauto.
           ++ destruct Hi as [Hi|[[]|Hi]]; auto.
           ++ destruct Hi as [Hi|[[Hi|[]]|Hi]]; auto. exfalso. congruence.
Qed.
