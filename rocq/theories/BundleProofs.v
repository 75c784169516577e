(** Proofs about the dirty bundles. *)
From Coq Require Import Permutation Sorted.
From Verif Require Import Base BaseLemmas UtilModel UtilIds TrieModel TrieSpec DbModel DbTables DbCoalesce BundleModel.

Lemma nodup_map_in {A B} (f : A -> B) l : (forall x y, In x l -> In y l -> f x = f y -> x = y) -> NoDup l -> NoDup (map f l).
Proof.
  induction l as [|x l IH]; intros Hf Hn; cbn [map]; [constructor|]. inversion Hn as [|? ? Hx Hn']; subst. constructor.
  - intros Hi. apply in_map_iff in Hi as (y & Hq & Hy). apply Hx. rewrite (Hf x y); auto; [left; reflexivity | right; exact Hy].
  - apply IH; [|exact Hn']. intros a b Ha Hb. apply Hf; right; assumption.
Qed.
Lemma nodup_app {A} (l l' : list A) : NoDup l -> NoDup l' -> (forall x, In x l -> ~ In x l') -> NoDup (l ++ l').
Proof.
  induction l as [|x l IH]; intros Hn Hn' Hd; [exact Hn'|]. inversion Hn as [|? ? Hx Hn1]; subst. cbn [app]. constructor.
  - intros Hi. apply in_app_iff in Hi as [Hi|Hi]; [contradiction|]. apply (Hd x (or_introl eq_refl) Hi).
  - apply IH; auto. intros y Hy. apply Hd. right. exact Hy.
Qed.

Section Bundle.
  Variable parts : nat.
  Hypothesis Hparts : 0 < parts.
  Variable rows : nat -> list bytes.

  Definition taken (c : cursor) : list bytes := concat (map (fun p => firstn (c_off c p) (rows p)) (seq 0 parts)).
  Definition everything : list bytes := concat (map rows (seq 0 parts)).
  Definition valid (c : cursor) : Prop := forall p, p < parts ->
    c_off c p <= length (rows p) /\ (c_done c p = true -> c_off c p = length (rows p)).
  Definition undone (c : cursor) : list nat := filter (fun p => negb (c_done c p)) (seq 0 parts).

  (** ** Active partitions *)
  Lemma rotation n : Permutation (map (fun i => (n + i) mod parts) (seq 0 parts)) (seq 0 parts).
  Proof.
    apply NoDup_Permutation_bis.
    - apply nodup_map_in; [|apply seq_NoDup].
      intros i j Hi Hj Hq. apply in_seq in Hi, Hj.
      pose proof (Nat.div_mod (n + i) parts ltac:(lia)) as H1. pose proof (Nat.div_mod (n + j) parts ltac:(lia)) as H2.
      rewrite Hq in H1. pose proof (Nat.mod_upper_bound (n + j) parts ltac:(lia)).
      assert ((n + i) / parts = (n + j) / parts \/ (n + i) / parts < (n + j) / parts \/ (n + j) / parts < (n + i) / parts) as [He|[He|He]] by lia; nia.
    - rewrite map_length. lia.
    - intros x Hx. apply in_map_iff in Hx as (i & <- & _). apply in_seq. pose proof (Nat.mod_upper_bound (n + i) parts ltac:(lia)). lia.
  Qed.
  Lemma perm_filter {A} (f : A -> bool) l l' : Permutation l l' -> Permutation (filter f l) (filter f l').
  Proof.
    induction 1 as [|x l l' _ IH|x y l|l l' l'' _ IH1 _ IH2]; cbn [filter].
    - constructor.
    - destruct (f x); [constructor|]; exact IH.
    - destruct (f x), (f y); try apply Permutation_refl. apply perm_swap.
    - eapply Permutation_trans; eauto.
  Qed.
  Lemma active_perm c : Permutation (active parts c) (undone c).
  Proof. apply perm_filter, rotation. Qed.
  Lemma active_nodup c : NoDup (active parts c).
  Proof. eapply Permutation_NoDup; [apply Permutation_sym, active_perm|]. apply NoDup_filter, seq_NoDup. Qed.
  Lemma active_in c p : In p (active parts c) <-> p < parts /\ c_done c p = false.
  Proof.
    split.
    - intros Hi. apply (Permutation_in _ (active_perm c)) in Hi. apply filter_In in Hi as [Hi Hd]. apply in_seq in Hi.
      split; [lia|]. destruct (c_done c p); [discriminate|reflexivity].
    - intros [Hp Hd]. apply (Permutation_in _ (Permutation_sym (active_perm c))). apply filter_In. split; [apply in_seq; lia|].
      rewrite Hd. reflexivity.
  Qed.
  Lemma active_none c : active parts c = [] -> forall p, p < parts -> c_done c p = true.
  Proof.
    intros Ha p Hp. destruct (c_done c p) eqn:Hd; [reflexivity|].
    assert (Hi : In p (active parts c)) by (apply active_in; auto). rewrite Ha in Hi. destruct Hi.
  Qed.

  (** ** Limits *)
  Lemma limits_length r n : length (limits r n) = n.
  Proof. unfold limits. rewrite map_length, seq_length. reflexivity. Qed.
  Lemma sum_ones x n : forall a, list_sum (map (fun i => if i <? x then 1 else 0) (seq a n)) = Nat.min (x - a) n.
  Proof.
    induction n as [|n IH]; intros a; cbn [seq map list_sum fold_right]; [lia|].
    change (fold_right Nat.add 0) with list_sum. rewrite IH.
    destruct (Nat.ltb_spec a x); lia.
  Qed.
  Lemma sum_plus {A} (f g : A -> nat) l : list_sum (map (fun x => f x + g x) l) = list_sum (map f l) + list_sum (map g l).
  Proof. induction l as [|x l IH]; [reflexivity|]. cbn [map list_sum fold_right] in *. change (fold_right Nat.add 0) with list_sum in *. lia. Qed.
  Lemma sum_const {A} b (l : list A) : list_sum (map (fun _ => b) l) = b * length l.
  Proof. induction l as [|x l IH]; cbn [map list_sum fold_right length]; change (fold_right Nat.add 0) with list_sum; nia. Qed.
  Lemma limits_sum r n : 0 < n -> list_sum (limits r n) = r.
  Proof.
    intros Hn. unfold limits. rewrite (sum_plus (fun _ => r / n) (fun i => if i <? r mod n then 1 else 0)).
    rewrite sum_const, sum_ones, seq_length. pose proof (Nat.mod_upper_bound r n ltac:(lia)).
    pose proof (Nat.div_mod r n ltac:(lia)). nia.
  Qed.
  Lemma limits_hd r n : 0 < n -> 0 < r -> exists x l, limits r n = S x :: l.
  Proof.
    intros Hn Hr. destruct n as [|n]; [lia|]. unfold limits. cbn [seq map].
    destruct (Nat.ltb_spec 0 (r mod S n)).
    - rewrite Nat.add_1_r. eauto.
    - pose proof (Nat.div_mod r (S n) ltac:(lia)). destruct (r / S n) as [|q] eqn:Hq; [nia|].
      rewrite Nat.add_0_r. eauto.
  Qed.

  (** ** One round *)
  Definition gathered (c : cursor) (l : list (nat * nat)) : list bytes := concat (map (fun r => fetch rows c (fst r) (snd r)) l).
  Lemma advance_all c0 l : forall b c, NoDup (map fst l) ->
    (forall r, In r l -> c_off c (fst r) = c_off c0 (fst r) /\ c_done c (fst r) = c_done c0 (fst r)) ->
    exists c', fold_left (advance rows c0) l (b, c) = (b ++ gathered c0 l, c') /\
      (forall p, ~ In p (map fst l) -> c_off c' p = c_off c p /\ c_done c' p = c_done c p) /\
      (forall r, In r l -> c_off c' (fst r) = c_off c0 (fst r) + length (fetch rows c0 (fst r) (snd r)) /\
                           c_done c' (fst r) = c_done c0 (fst r) || (length (fetch rows c0 (fst r) (snd r)) <? snd r)).
  Proof.
    induction l as [|[p limit] l IH]; intros b c Hn Ha; cbn [fold_left].
    - exists c. split; [unfold gathered; cbn; rewrite app_nil_r; reflexivity|]. split; [auto | intros r []].
    - cbn [map fst] in Hn. inversion Hn as [|? ? Hni Hn']; subst.
      unfold advance at 2. set (ids := fetch rows c0 p limit).
      match goal with |- context [fold_left _ _ (?b1, ?c1)] => destruct (IH b1 c1 Hn') as (c' & He & Hout & Hin) end.
      { intros r Hr. assert (Hp : fst r <> p) by (intros Hq; apply Hni; rewrite <- Hq; apply in_map; exact Hr).
        cbn [c_off c_done]. unfold set_at. destruct (Nat.eqb_spec (fst r) p); [contradiction|].
        destruct (Ha r (or_intror Hr)) as [Ho Hd]. split; [exact Ho|]. destruct (length ids <? limit); [|exact Hd].
        destruct (Nat.eqb_spec (fst r) p); [contradiction | exact Hd]. }
      exists c'. split; [|split].
      + rewrite He. unfold gathered. cbn [map concat fst snd]. fold ids. rewrite app_assoc. reflexivity.
      + intros q Hq. cbn [map fst In] in Hq. destruct (Hout q ltac:(tauto)) as [Ho Hd]. rewrite Ho, Hd. cbn [c_off c_done].
        unfold set_at. destruct (Nat.eqb_spec q p) as [->|Hne]; [tauto|]. split; [reflexivity|].
        destruct (length ids <? limit); [|reflexivity]. destruct (Nat.eqb_spec q p); [contradiction|reflexivity].
      + intros r [<-|Hr]; [|apply Hin; exact Hr]. cbn [fst snd].
        destruct (Hout p Hni) as [Ho Hd]. rewrite Ho, Hd. cbn [c_off c_done]. unfold set_at. fold ids.
        destruct (Ha (p, limit) (or_introl eq_refl)) as [Ho' Hd']. cbn [fst] in Ho', Hd'. rewrite Nat.eqb_refl.
        split; [rewrite Ho'; reflexivity|]. destruct (length ids <? limit).
        * rewrite Nat.eqb_refl, orb_true_r. reflexivity.
        * rewrite Hd', orb_false_r. reflexivity.
  Qed.

  Lemma concat_map_app {A B} (f g : A -> list B) l :
    Permutation (concat (map (fun x => f x ++ g x) l)) (concat (map f l) ++ concat (map g l)).
  Proof.
    induction l as [|x l IH]; cbn [map concat]; [constructor|].
    rewrite <- app_assoc. rewrite <- app_assoc. apply Permutation_app_head.
    eapply Permutation_trans; [apply Permutation_app_head; exact IH|]. apply Permutation_app_swap_app.
  Qed.
  Lemma concat_map_perm {A B} (f : A -> list B) l l' : Permutation l l' -> Permutation (concat (map f l)) (concat (map f l')).
  Proof.
    induction 1 as [|x l l' _ IH|x y l|l l' l'' _ IH1 _ IH2]; cbn [map concat].
    - constructor.
    - apply Permutation_app_head. exact IH.
    - apply Permutation_app_swap_app.
    - eapply Permutation_trans; eauto.
  Qed.
  Lemma concat_nil {A B} (f : A -> list B) l : (forall x, In x l -> f x = []) -> concat (map f l) = [].
  Proof.
    induction l as [|x l IH]; intros Hf; [reflexivity|]. cbn [map concat]. rewrite (Hf x (or_introl eq_refl)).
    apply IH. intros y Hy. apply Hf. right. exact Hy.
  Qed.

  Lemma fetch_firstn c p limit : firstn (c_off c p + length (fetch rows c p limit)) (rows p) = firstn (c_off c p) (rows p) ++ fetch rows c p limit.
  Proof.
    assert (Hsplit : forall o k (l : list bytes), firstn (o + k) l = firstn o l ++ firstn k (skipn o l)).
    { induction o as [|o IH]; intros k l; [reflexivity|]. destruct l as [|x l]; cbn [Nat.add firstn skipn app]; [rewrite firstn_nil; reflexivity|].
      rewrite IH. reflexivity. }
    rewrite Hsplit. f_equal. unfold fetch. set (l := skipn (c_off c p) (rows p)).
    rewrite firstn_length. destruct (Nat.le_gt_cases limit (length l)) as [Hl|Hl].
    - rewrite Nat.min_l by lia. reflexivity.
    - rewrite Nat.min_r by lia. rewrite !firstn_all2 by lia. reflexivity.
  Qed.

  Lemma taken_step c c' l : NoDup (map fst l) -> (forall r, In r l -> fst r < parts) ->
    (forall p, ~ In p (map fst l) -> c_off c' p = c_off c p) ->
    (forall r, In r l -> c_off c' (fst r) = c_off c (fst r) + length (fetch rows c (fst r) (snd r))) ->
    Permutation (taken c') (taken c ++ gathered c l).
  Proof.
    intros Hn Hlt Hout Hin.
    set (f := fun p => match find (fun r => fst r =? p) l with Some r => fetch rows c (fst r) (snd r) | None => [] end).
    assert (Hf : forall r, In r l -> f (fst r) = fetch rows c (fst r) (snd r)).
    { intros r Hr. unfold f. destruct (find (fun r' => fst r' =? fst r) l) as [r'|] eqn:Hfd.
      - apply find_some in Hfd as [Hr' He]. apply Nat.eqb_eq in He.
        replace r with r'; [reflexivity|]. clear -Hn Hr Hr' He. induction l as [|x l IH]; [destruct Hr|].
        cbn [map] in Hn. inversion Hn; subst. destruct Hr as [->|Hr], Hr' as [->|Hr']; auto.
        + exfalso. apply H1. rewrite <- He. apply in_map. exact Hr'.
        + exfalso. apply H1. rewrite He. apply in_map. exact Hr.
      - exfalso. apply (find_none _ _ Hfd) in Hr. rewrite Nat.eqb_refl in Hr. discriminate. }
    assert (Hf0 : forall p, ~ In p (map fst l) -> f p = []).
    { intros p Hp. unfold f. destruct (find (fun r => fst r =? p) l) as [r|] eqn:Hfd; [|reflexivity].
      apply find_some in Hfd as [Hr He]. apply Nat.eqb_eq in He. exfalso. apply Hp. rewrite <- He. apply in_map. exact Hr. }
    assert (Ht : taken c' = concat (map (fun p => firstn (c_off c p) (rows p) ++ f p) (seq 0 parts))).
    { unfold taken. f_equal. apply map_ext_in. intros p _. destruct (in_dec Nat.eq_dec p (map fst l)) as [Hi|Hi].
      - apply in_map_iff in Hi as (r & <- & Hr). rewrite (Hf r Hr), (Hin r Hr). apply fetch_firstn.
      - rewrite (Hout p Hi), (Hf0 p Hi), app_nil_r. reflexivity. }
    rewrite Ht. eapply Permutation_trans; [apply concat_map_app|]. apply Permutation_app_head.
    assert (Hp : exists rest, Permutation (seq 0 parts) (map fst l ++ rest) /\ forall p, In p rest -> ~ In p (map fst l)).
    { exists (filter (fun p => negb (existsb (Nat.eqb p) (map fst l))) (seq 0 parts)).
      assert (Hd : forall p, In p (filter (fun p => negb (existsb (Nat.eqb p) (map fst l))) (seq 0 parts)) -> ~ In p (map fst l)).
      { intros p Hq Hp. apply filter_In in Hq as [_ Hq].
        apply negb_true_iff in Hq. assert (existsb (Nat.eqb p) (map fst l) = true); [|congruence].
        apply existsb_exists. exists p. split; [exact Hp | apply Nat.eqb_refl]. }
      split; [|exact Hd]. apply NoDup_Permutation; [apply seq_NoDup | |].
      { apply nodup_app; [exact Hn | apply NoDup_filter, seq_NoDup|]. intros p Hp Hq. exact (Hd p Hq Hp). } intros p. rewrite in_app_iff, filter_In. split.
      - intros Hp. destruct (existsb (Nat.eqb p) (map fst l)) eqn:He; [|right; auto]. left.
        apply existsb_exists in He as (q & Hq & He). apply Nat.eqb_eq in He. subst. exact Hq.
      - intros [Hp|[Hp _]]; [|exact Hp]. apply in_map_iff in Hp as (r & <- & Hr). apply in_seq. specialize (Hlt r Hr). lia. }
    destruct Hp as (rest & Hp & Hd). eapply Permutation_trans; [apply concat_map_perm; exact Hp|].
    rewrite map_app, concat_app. rewrite (concat_nil f rest), app_nil_r.
    - unfold gathered. rewrite map_map. rewrite (map_ext_in _ _ l Hf). apply Permutation_refl.
    - intros p Hi. apply Hf0, Hd, Hi.
  Qed.

  Lemma requests_fst act r : map fst (requests act r) = act.
  Proof.
    unfold requests. assert (Hl : length act = length (limits r (length act))) by (symmetry; apply limits_length).
    revert Hl. generalize (limits r (length act)). induction act as [|p act IH]; intros [|x l] Hl; cbn [combine map fst]; try reflexivity; try discriminate.
    f_equal. apply IH. injection Hl as Hl. exact Hl.
  Qed.
  Lemma requests_snd act r : map snd (requests act r) = limits r (length act).
  Proof.
    unfold requests. assert (Hl : length act = length (limits r (length act))) by (symmetry; apply limits_length).
    revert Hl. generalize (limits r (length act)). induction act as [|p act IH]; intros [|x l] Hl; cbn [combine map snd]; try reflexivity; try discriminate.
    f_equal. apply IH. injection Hl as Hl. exact Hl.
  Qed.
  Lemma gathered_length c l : length (gathered c l) <= list_sum (map snd l).
  Proof.
    unfold gathered. induction l as [|[p x] l IH]; [cbn; lia|]. cbn [map concat fst snd list_sum fold_right].
    change (fold_right Nat.add 0) with list_sum. rewrite app_length. unfold fetch at 1. rewrite firstn_length. lia.
  Qed.

  Lemma fetch_le c p x : valid c -> p < parts -> c_off c p + length (fetch rows c p x) <= length (rows p) /\
    (length (fetch rows c p x) < x -> c_off c p + length (fetch rows c p x) = length (rows p)).
  Proof. intros Hv Hp. destruct (Hv p Hp) as [Ho _]. unfold fetch. rewrite firstn_length, skipn_length. lia. Qed.

  Lemma round_ok max b c : valid c -> length b < max -> active parts c <> [] ->
    exists g c', round parts rows max (active parts c) b c = (b ++ g, c') /\ valid c' /\ length (b ++ g) <= max /\
      Permutation (taken c') (taken c ++ g) /\
      (max - length (b ++ g)) + length (undone c') < (max - length b) + length (undone c).
  Proof.
    intros Hv Hl Ha. set (act := active parts c). set (l := requests act (max - length b)).
    assert (Hn : NoDup (map fst l)) by (unfold l; rewrite requests_fst; apply active_nodup).
    assert (Hin : forall r, In r l -> fst r < parts /\ c_done c (fst r) = false).
    { intros r Hr. apply active_in. fold act. rewrite <- (requests_fst act (max - length b)). apply in_map. exact Hr. }
    assert (Hact : 0 < length act) by (destruct act as [|? ?] eqn:E; [exfalso; apply Ha; exact E | cbn; lia]).
    assert (Hsum : list_sum (map snd l) = max - length b) by (unfold l; rewrite requests_snd; apply limits_sum; exact Hact).
    destruct (advance_all c l b c Hn ltac:(auto)) as (c' & He & Hout & Hi).
    exists (gathered c l), (mk_cursor (c_off c') (c_done c') ((hd 0 act + 1) mod parts)).
    unfold round. fold l. rewrite He. split; [reflexivity|].
    pose proof (gathered_length c l) as Hgl. split; [|split; [rewrite app_length; lia|split]].
    - intros p Hp. cbn [c_off c_done]. destruct (in_dec Nat.eq_dec p (map fst l)) as [Hpi|Hpi].
      + apply in_map_iff in Hpi as (r & <- & Hr). destruct (Hi r Hr) as [Ho Hd]. rewrite Ho, Hd.
        destruct (fetch_le c (fst r) (snd r) Hv Hp) as [H1 H2]. split; [exact H1|]. intros Hq. apply H2.
        rewrite (proj2 (Hin r Hr)) in Hq. cbn in Hq. apply Nat.ltb_lt in Hq. exact Hq.
      + destruct (Hout p Hpi) as [-> ->]. apply Hv. exact Hp.
    - change (taken (mk_cursor (c_off c') (c_done c') ((hd 0 act + 1) mod parts))) with (taken c').
      apply taken_step; auto.
      + intros r Hr. apply (Hin r Hr).
      + intros p Hp. apply (Hout p Hp).
      + intros r Hr. apply (Hi r Hr).
    - change (undone (mk_cursor (c_off c') (c_done c') ((hd 0 act + 1) mod parts))) with (undone c').
      assert (Hmono : forall p, c_done c p = true -> c_done c' p = true).
      { intros p Hp. destruct (in_dec Nat.eq_dec p (map fst l)) as [Hpi|Hpi].
        - apply in_map_iff in Hpi as (r & <- & Hr). rewrite (proj2 (Hi r Hr)), Hp. reflexivity.
        - rewrite (proj2 (Hout p Hpi)). exact Hp. }
      assert (Hu : forall ps, length (filter (fun p => negb (c_done c' p)) ps) <= length (filter (fun p => negb (c_done c p)) ps)).
      { induction ps as [|p ps IH]; [reflexivity|]. cbn [filter]. pose proof (Hmono p) as Hm.
        destruct (c_done c p), (c_done c' p); cbn [negb length]; try lia; discriminate (Hm eq_refl). }
      assert (Hu' : forall ps p, In p ps -> c_done c p = false -> c_done c' p = true ->
        length (filter (fun p => negb (c_done c' p)) ps) < length (filter (fun p => negb (c_done c p)) ps)).
      { induction ps as [|q ps IH]; intros p Hp H0 H1; [destruct Hp|]. cbn [filter]. destruct Hp as [->|Hp].
        - rewrite H0, H1. cbn [negb length]. pose proof (Hu ps). lia.
        - specialize (IH p Hp H0 H1). pose proof (Hmono q) as Hm.
          destruct (c_done c q), (c_done c' q); cbn [negb length]; try lia; discriminate (Hm eq_refl). }
      rewrite app_length. specialize (Hu (seq 0 parts)). unfold undone.
      destruct (limits_hd (max - length b) (length act) Hact ltac:(lia)) as (x & ls & Hls).
      assert (Hh : exists p l', l = (p, S x) :: l').
      { unfold l, requests. rewrite Hls. destruct act as [|p act']; [cbn in Hact; lia|]. cbn [combine]. eauto. }
      destruct Hh as (p & l' & Hl'). assert (Hr : In (p, S x) l) by (rewrite Hl'; left; reflexivity).
      destruct (Hi _ Hr) as [_ Hd]. cbn [fst snd] in Hd.
      destruct (length (fetch rows c p (S x))) as [|n] eqn:Hf.
      + cbn [Nat.ltb Nat.leb] in Hd. rewrite orb_true_r in Hd.
        specialize (Hu' (seq 0 parts) p). rewrite in_seq in Hu'. destruct (Hin _ Hr) as [Hp Hd0]. cbn [fst] in Hp, Hd0.
        specialize (Hu' ltac:(lia) Hd0 Hd). lia.
      + assert (S n <= length (gathered c l)); [|lia].
        rewrite Hl'. unfold gathered. cbn [map concat fst snd]. rewrite app_length, Hf. lia.
  Qed.

  Lemma bundle_loop_ok fuel max : forall b c, valid c -> length b <= max -> (max - length b) + length (undone c) <= fuel ->
    exists g c' d, bundle_loop parts rows fuel max b c = Some (b ++ g, c', d) /\ valid c' /\ length (b ++ g) <= max /\
      Permutation (taken c') (taken c ++ g) /\
      (d = true -> Permutation (taken c') everything) /\ (length (b ++ g) < max -> d = true).
  Proof.
    assert (Hall : forall c, valid c -> active parts c = [] -> Permutation (taken c) everything).
    { intros c Hv Ha. unfold taken, everything. replace (map (fun p => firstn (c_off c p) (rows p)) (seq 0 parts)) with (map rows (seq 0 parts)).
      - apply Permutation_refl.
      - apply map_ext_in. intros p Hp. apply in_seq in Hp. destruct (Hv p ltac:(lia)) as [_ Hd].
        rewrite Hd by (apply active_none; [exact Ha | lia]). symmetry. apply firstn_all. }
    induction fuel as [|fuel IH]; intros b c Hv Hb Hm; cbn [bundle_loop]; destruct (Nat.ltb_spec (length b) max) as [Hl|Hl].
    - destruct (active parts c) as [|a act] eqn:Ha.
      + exists [], c, true. rewrite app_nil_r. repeat (split; [first [reflexivity | assumption | rewrite app_nil_r; apply Permutation_refl | intros _; apply Hall; assumption]|]). auto.
      + lia.
    - exists [], c, (match active parts c with [] => true | _ => false end). rewrite app_nil_r.
      split; [reflexivity|]. split; [exact Hv|]. split; [lia|]. split; [rewrite app_nil_r; apply Permutation_refl|].
      split; [|lia]. intros Hd. apply Hall; [exact Hv|]. destruct (active parts c); [reflexivity|discriminate].
    - destruct (active parts c) as [|a act] eqn:Ha.
      + exists [], c, true. rewrite app_nil_r. repeat (split; [first [reflexivity | assumption | rewrite app_nil_r; apply Permutation_refl | intros _; apply Hall; assumption]|]). auto.
      + destruct (round_ok max b c Hv Hl ltac:(rewrite Ha; discriminate)) as (g & c1 & Hr & Hv1 & Hl1 & Hp1 & Hm1). rewrite Ha in Hr. rewrite Hr.
        destruct (IH (b ++ g) c1 Hv1 Hl1 ltac:(lia)) as (g' & c' & d & He & Hv' & Hl' & Hp' & Hd & Hd').
        exists (g ++ g'), c', d. rewrite app_assoc. split; [exact He|]. split; [exact Hv'|]. split; [exact Hl'|].
        split; [|split; [exact Hd | exact Hd']]. eapply Permutation_trans; [exact Hp'|].
        rewrite (app_assoc (taken c)). apply Permutation_app_tail. exact Hp1.
    - exists [], c, (match active parts c with [] => true | _ => false end). rewrite app_nil_r.
      split; [reflexivity|]. split; [exact Hv|]. split; [lia|]. split; [rewrite app_nil_r; apply Permutation_refl|].
      split; [|lia]. intros Hd. apply Hall; [exact Hv|]. destruct (active parts c); [reflexivity|discriminate].
  Qed.

  Definition valid_opt (c : option cursor) : Prop := match c with None => True | Some c => valid c end.
  Definition taken_opt (c : option cursor) : list bytes := match c with None => [] | Some c => taken c end.
  Lemma dirty_bundle_ok c max : 0 < max -> valid_opt c ->
    exists b c' d, dirty_bundle parts rows c max = Ok (b, c', d) /\ valid c' /\ length b <= max /\
      Permutation (taken c') (taken_opt c ++ b) /\
      (d = true -> Permutation (taken c') everything) /\ (length b < max -> d = true).
  Proof.
    intros Hm Hv. unfold dirty_bundle. destruct (Nat.eqb_spec max 0); [lia|].
    assert (Hvn : valid (normalize parts c)).
    { destruct c as [c|]; [exact Hv|]. intros p Hp. cbn. split; [lia | discriminate]. }
    destruct (bundle_loop_ok (bundle_fuel parts max) max [] (normalize parts c) Hvn) as (g & c' & d & He & H1 & H2 & H3 & H4).
    - cbn; lia.
    - unfold bundle_fuel, undone. cbn [length]. assert (Hf : forall ps, length (filter (fun p => negb (c_done (normalize parts c) p)) ps) <= length ps).
      { induction ps as [|p ps IHp]; [reflexivity|]. cbn [filter]. destruct (negb _); cbn [length]; lia. }
      specialize (Hf (seq 0 parts)). rewrite seq_length in Hf. lia.
    - rewrite He. exists g, c', d. split; [reflexivity|]. split; [exact H1|]. split; [exact H2|]. split; [|exact H4].
      replace (taken_opt c) with (taken (normalize parts c)); [exact H3|]. destruct c as [c|]; [reflexivity|].
      unfold taken. cbn. apply concat_nil. intros p _. reflexivity.
  Qed.

  Lemma taken_rest c : valid_opt c -> exists rest, Permutation (taken_opt c ++ rest) everything.
  Proof.
    intros _. destruct c as [c|]; [|exists everything; apply Permutation_refl].
    exists (concat (map (fun p => skipn (c_off c p) (rows p)) (seq 0 parts))). cbn [taken_opt]. unfold taken, everything.
    eapply Permutation_trans; [apply Permutation_sym, concat_map_app|]. rewrite (map_ext _ rows); [apply Permutation_refl|].
    intros p. apply firstn_skipn.
  Qed.

  Lemma bundles_from_ok max : 0 < max -> forall fuel c, valid_opt c -> length everything - length (taken_opt c) <= fuel ->
    exists bs, bundles_from parts rows fuel max c = Some (Ok bs) /\
      Permutation (taken_opt c ++ concat bs) everything /\
      Forall (fun b => 1 <= length b <= max) bs /\
      (forall i, S i < length bs -> length (nth i bs []) = max).
  Proof.
    intros Hm. induction fuel as [|fuel IH]; intros c Hv Hf;
      (destruct (dirty_bundle_ok c max Hm Hv) as (b & c' & d & He & Hv' & Hl & Hp & Hd & Hd')); cbn [bundles_from]; rewrite He.
    - destruct b as [|x b].
      + exists []. cbn [concat]. specialize (Hd (Hd' ltac:(cbn; lia))). split; [reflexivity|].
        split; [eapply Permutation_trans; [apply Permutation_sym; exact Hp | exact Hd]|]. split; [constructor | intros i Hi; cbn in Hi; lia].
      + destruct d.
        * exists [x :: b]. split; [reflexivity|]. cbn [concat]. rewrite app_nil_r.
          split; [eapply Permutation_trans; [apply Permutation_sym; exact Hp | auto]|].
          split; [constructor; [cbn [length] in *; lia | constructor] | intros i Hi; cbn in Hi; lia].
        * exfalso. assert (Hle : length (taken c') <= length everything).
          { clear -Hv'. unfold taken, everything. assert (Hs : forall p, In p (seq 0 parts) -> p < parts) by (intros p Hp; apply in_seq in Hp; lia).
            revert Hs. generalize (seq 0 parts). induction l as [|p l IH]; intros Hs; [reflexivity|]. cbn [map concat]. rewrite !app_length, firstn_length.
            specialize (IH ltac:(intros q Hq; apply Hs; right; exact Hq)). lia. }
          apply Permutation_length in Hp. rewrite app_length in Hp. cbn [length] in Hp. lia.
    - destruct b as [|x b].
      + exists []. cbn [concat]. specialize (Hd (Hd' ltac:(cbn; lia))). split; [reflexivity|].
        split; [eapply Permutation_trans; [apply Permutation_sym; exact Hp | exact Hd]|]. split; [constructor | intros i Hi; cbn in Hi; lia].
      + destruct d.
        * exists [x :: b]. split; [reflexivity|]. cbn [concat]. rewrite app_nil_r.
          split; [eapply Permutation_trans; [apply Permutation_sym; exact Hp | auto]|].
          split; [constructor; [cbn [length] in *; lia | constructor] | intros i Hi; cbn in Hi; lia].
        * destruct (IH (Some c') Hv') as (bs & Hbs & Hpb & Hfb & Hfull).
          { cbn [taken_opt]. apply Permutation_length in Hp. rewrite app_length in Hp. cbn [length] in Hp. lia. }
          rewrite Hbs. exists ((x :: b) :: bs). split; [reflexivity|]. split; [|split].
          -- cbn [concat]. eapply Permutation_trans; [|exact Hpb]. rewrite app_assoc. apply Permutation_app_tail. apply Permutation_sym. exact Hp.
          -- constructor; [cbn [length] in *; lia | exact Hfb].
          -- intros [|i] Hi; cbn [nth].
             ++ destruct (Nat.lt_ge_cases (length (x :: b)) max) as [Hlt|Hge]; [discriminate (Hd' Hlt) | lia].
             ++ apply Hfull. cbn [length] in Hi. lia.
  Qed.
End Bundle.

(** ** The dirty table *)
Lemma everything_dirty d : Permutation (everything partitions (dirty_rows d)) (map fst (d_dirty d)).
Proof.
  unfold everything. 
  assert (Hp : forall ps, Permutation (concat (map (dirty_rows d) ps)) (concat (map (fun p => map fst (filter (fun r => shard (fst r) =? p) (d_dirty d))) ps))).
  { induction ps as [|p ps IH]; [constructor|]. cbn [map concat]. apply Permutation_app; [|exact IH]. apply sort_perm. }
  eapply Permutation_trans; [apply Hp|]. clear Hp. induction (d_dirty d) as [|r t IH].
  - cbn [filter map]. rewrite concat_nil; [constructor | reflexivity].
  - cbn [map].
    assert (Hq : forall ps, concat (map (fun p => map fst (filter (fun r0 => shard (fst r0) =? p) (r :: t))) ps) =
       concat (map (fun p => (if shard (fst r) =? p then [fst r] else []) ++ map fst (filter (fun r0 => shard (fst r0) =? p) t)) ps)).
    { intros ps. f_equal. apply map_ext. intros p. cbn [filter]. destruct (shard (fst r) =? p); reflexivity. }
    rewrite Hq. eapply Permutation_trans; [apply concat_map_app|].
    change (fst r :: map fst t) with ([fst r] ++ map fst t). apply Permutation_app; [|exact IH].
    assert (Hone : forall n a, a <= shard (fst r) < a + n -> concat (map (fun p => if shard (fst r) =? p then [fst r] else []) (seq a n)) = [fst r]).
    { induction n as [|n IHn]; intros a Ha; [lia|]. cbn [seq map concat]. destruct (Nat.eqb_spec (shard (fst r)) a) as [He|He].
      - rewrite concat_nil; [reflexivity|]. intros p Hp. apply in_seq in Hp. destruct (Nat.eqb_spec (shard (fst r)) p); [lia|reflexivity].
      - apply IHn. lia. }
    rewrite Hone; [apply Permutation_refl|]. pose proof (shard_lt (fst r)). unfold partitions in *. lia.
Qed.

Lemma smt_bundles_ok d max : 0 < max ->
  exists bs, smt_bundles d max = Some (Ok bs) /\ Permutation (concat bs) (map fst (d_dirty d)) /\
    Forall (fun b => 1 <= length b <= max) bs /\ (forall i, S i < length bs -> length (nth i bs []) = max).
Proof.
  intros Hm. pose proof (everything_dirty d) as He.
  destruct (bundles_from_ok partitions ltac:(unfold partitions; lia) (dirty_rows d) max Hm (length (d_dirty d)) None I) as (bs & Hb & Hp & Hf & Hn).
  - apply Permutation_length in He. rewrite map_length in He. lia.
  - exists bs. split; [exact Hb|]. split; [|split; assumption]. eapply Permutation_trans; [exact Hp | exact He].
Qed.

(** ** Trie input *)
Lemma insert_kv_perm x l : Permutation (insert_kv x l) (x :: l).
Proof.
  induction l as [|y l IH]; cbn [insert_kv]; [apply Permutation_refl|]. destruct (bcmp (fst x) (fst y)); try apply Permutation_refl.
  eapply Permutation_trans; [apply perm_skip; exact IH | apply perm_swap].
Qed.
Lemma sort_kvs_perm l : Permutation (sort_kvs l) l.
Proof.
  induction l as [|x l IH]; cbn [sort_kvs]; [constructor|]. eapply Permutation_trans; [apply insert_kv_perm|]. apply perm_skip. exact IH.
Qed.
Lemma sort_kvs_keys l : map fst (sort_kvs l) = sort_ids (map fst l).
Proof.
  assert (Hi : forall x m, map fst (insert_kv x m) = insert_id (fst x) (map fst m)).
  { intros x m. induction m as [|y m IH]; cbn [insert_kv map insert_id]; [reflexivity|].
    destruct (bcmp (fst x) (fst y)); cbn [map]; try reflexivity. rewrite IH. reflexivity. }
  induction l as [|x l IH]; cbn [sort_kvs map sort_ids]; [reflexivity|]. rewrite Hi, IH. reflexivity.
Qed.
Lemma insert_increasing x l : increasing l -> ~ In x l -> increasing (insert_id x l).
Proof.
  induction l as [|y l IH]; intros Hi Hx; cbn [insert_id].
  - split; exact I.
  - destruct Hi as [Hy Hi]. destruct (bcmp x y) eqn:Hc.
    + apply bcmp_eq in Hc. subst. exfalso. apply Hx. left. reflexivity.
    + split; [exact Hc|]. split; assumption.
    + specialize (IH Hi ltac:(intros H; apply Hx; right; exact H)).
      assert (Hyx : bcmp y x = Lt) by (rewrite bcmp_antisym, Hc; reflexivity).
      destruct l as [|z l]; cbn [insert_id] in *; [split; [exact Hyx | exact IH]|].
      destruct (bcmp x z); (split; [first [exact Hyx | exact Hy] | exact IH]).
Qed.
Lemma sort_increasing l : NoDup l -> increasing (sort_ids l).
Proof.
  induction l as [|x l IH]; intros Hn; cbn [sort_ids]; [exact I|]. inversion Hn as [|? ? Hx Hn']; subst. apply insert_increasing; [auto|].
  intros Hi. apply Hx. eapply Permutation_in; [apply sort_perm | exact Hi].
Qed.
Lemma smt_input_ok H entries : NoDup (map fst entries) ->
  increasing (map fst (smt_input H entries)) /\ Permutation (smt_input H entries) (map (fun e => (fst e, smt_value H (snd e))) entries).
Proof.
  intros Hn. unfold smt_input. split; [|apply sort_kvs_perm]. rewrite sort_kvs_keys. apply sort_increasing. rewrite map_map. exact Hn.
Qed.
