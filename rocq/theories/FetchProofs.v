(** Invariant of the background fetcher and the updater. *)
From Verif Require Import Base BaseLemmas SysModel FetchModel FetchSeqProofs.

Section Fetch.
  Variable E : Type.
  Variable log : Z -> E.
  Variable pbs : Z.
  Hypothesis Hpbs : (0 < pbs)%Z.

  Notation sys := (sys E).
  Notation gor := (gor E).
  Notation step := (fetch_step E log pbs).

  (** The recorded size is true: the certificates of all entries below it were inserted. *)
  Definition truthful (s : sys) : Prop := forall j, (0 <= j < recorded E s)%Z -> In (log j) (inserted E s).
  (** The goroutine will not touch the fetcher any more. *)
  Definition over (g : gor) : Prop := match g with Ending _ _ | Gone _ => True | _ => False end.
  (** No update starts while the fetcher of an earlier one is still at work. *)
  Fixpoint patient (l : list act) (s : sys) : Prop :=
    match l with
    | [] => True
    | a :: l' => (match a with Cycle _ => Forall over (gors E s) | _ => True end) /\ patient l' (do step s a)
    end.

  Definition count (s : sys) : Z := if (f_end E s <? f_start E s)%Z then 0%Z else (1 + (f_end E s - f_start E s) / pbs)%Z.
  Definition pos (s : sys) (i : Z) : Z := Z.min (Z.max (f_start E s) (f_end E s + 1)) (f_start E s + i * pbs).
  Definition batch (s : sys) (i : Z) : list E := entries E log (pos s i) (pos s (i + 1) - 1).
  Definition sent (s : sys) (c p : Z) : list (result E) := entries (result E) (fun i => Some (batch s i)) c (p - 1).

  Lemma count_bounds s : (f_start E s <= f_end E s)%Z -> (1 <= count s)%Z /\ ((count s - 1) * pbs <= f_end E s - f_start E s < count s * pbs)%Z.
  Proof.
    intros H. unfold count. replace (f_end E s <? f_start E s)%Z with false by (symmetry; apply Z.ltb_ge; lia).
    pose proof (Z.div_mod (f_end E s - f_start E s) pbs ltac:(lia)). pose proof (Z.mod_pos_bound (f_end E s - f_start E s) pbs Hpbs).
    assert (0 <= (f_end E s - f_start E s) / pbs)%Z by (apply Z.div_pos; lia). nia.
  Qed.
  Lemma count_le s i : (0 <= i < count s)%Z -> (f_start E s <= f_end E s)%Z.
  Proof. unfold count. destruct (Z.ltb_spec (f_end E s) (f_start E s)); lia. Qed.
  Lemma pos_lt s i : (0 <= i < count s)%Z -> pos s i = (f_start E s + i * pbs)%Z /\ (f_start E s <= pos s i <= f_end E s)%Z /\ (pos s i < pos s (i + 1))%Z.
  Proof.
    intros Hi. pose proof (count_le s i Hi) as Hle. pose proof (count_bounds s Hle) as [H1 H2]. unfold pos.
    assert (i * pbs <= (count s - 1) * pbs)%Z by nia. assert (0 <= i * pbs)%Z by nia. nia.
  Qed.
  Lemma pos_0 s : pos s 0 = f_start E s.
  Proof. unfold pos. lia. Qed.
  Lemma pos_count s : pos s (count s) = Z.max (f_start E s) (f_end E s + 1).
  Proof.
    unfold pos. destruct (Z_lt_le_dec (f_end E s) (f_start E s)) as [H|H]; [unfold count; replace (f_end E s <? f_start E s)%Z with true by (symmetry; apply Z.ltb_lt; lia); lia|].
    pose proof (count_bounds s H) as [_ H2]. lia.
  Qed.
  Lemma batch_go s i : (0 <= i < count s)%Z -> entries E log (f_start E s + i * pbs) (Z.min (f_end E s) (f_start E s + i * pbs + pbs - 1)) = batch s i.
  Proof.
    intros Hi. destruct (pos_lt s i Hi) as (H1 & H2 & _). unfold batch. rewrite H1. f_equal. unfold pos.
    replace (f_start E s + (i + 1) * pbs)%Z with (f_start E s + i * pbs + pbs)%Z by lia. lia.
  Qed.
  Lemma batch_length s i : (0 <= i < count s)%Z -> Z.of_nat (length (batch s i)) = (pos s (i + 1) - pos s i)%Z.
  Proof. intros Hi. destruct (pos_lt s i Hi) as (_ & _ & H). unfold batch. rewrite entries_length. lia. Qed.

  (** The goroutine of the current fetch and its channel: [c] batches were taken, [p] were sent. *)
  Definition at_work (s : sys) (g : gor) (tail : list (result E)) (p : Z) (cl : bool) : Prop :=
    match g with
    | Fresh _ => p = 0%Z /\ tail = [] /\ cl = false
    | Loop _ own i cnt => own = f_chan E s /\ i = p /\ cnt = count s /\ tail = [] /\ cl = false
    | Got _ own i cnt r | Ready _ own i cnt r => own = f_chan E s /\ i = p /\ cnt = count s /\ (p < count s)%Z /\ (r = None \/ r = Some (batch s p)) /\ tail = [] /\ cl = false
    | Put _ own i cnt r ch => own = f_chan E s /\ ch = f_chan E s /\ i = p /\ cnt = count s /\ (p < count s)%Z /\ (r = None \/ r = Some (batch s p)) /\ tail = [] /\ cl = false
    | Ending _ own => own = f_chan E s /\ cl = false /\ ((p = count s /\ tail = []) \/ tail = [None] \/ (tail = [] /\ running E s = false))
    | Gone _ => cl = true /\ ((p = count s /\ tail = []) \/ tail = [None] \/ (tail = [] /\ running E s = false))
    end.
  Definition old (s : sys) (k : nat) : Prop :=
    nth_error (gors E s) k = Some (Gone E) \/ (nth_error (gors E s) k = Some (Ending E k) /\ exists b, nth_error (chans E s) k = Some (mk_chan E b false)).
  Definition current (s : sys) : Prop := exists g b tail c p cl,
    nth_error (gors E s) (f_chan E s) = Some g /\ nth_error (chans E s) (f_chan E s) = Some (mk_chan E b cl) /\
    b = sent s c p ++ tail /\ (0 <= c <= p)%Z /\ (p <= count s)%Z /\ at_work s g tail p cl /\ (running E s = true -> last_size E s = pos s c) /\
    (f_stop E s = true -> g = Gone E).
  Definition taking (s : sys) : Prop := running E s = true ->
    target E s = (f_end E s + 1)%Z /\ (f_start E s <= last_size E s)%Z /\
    (exists pre, inserted E s = pre ++ entries E log (f_start E s) (last_size E s - 1) /\ forall j, (0 <= j < f_start E s)%Z -> In (log j) pre) /\
    ((f_start E s < last_size E s)%Z -> last_size E s = target E s -> recorded E s = target E s).
  Definition Inv (s : sys) : Prop :=
    dead E s = false /\ truthful s /\ length (chans E s) = length (gors E s) /\ taking s /\
    (gors E s = [] -> running E s = false) /\
    (gors E s <> [] -> S (f_chan E s) = length (gors E s) /\ current s) /\ forall k, k < f_chan E s -> old s k.

  Lemma inv0 : Inv (sys0 E).
  Proof.
    split; [reflexivity|]. split; [intros j Hj; cbn in Hj; lia|]. split; [reflexivity|]. split; [intros X; discriminate X|]. split; [reflexivity|].
    split; [intros X; cbn in X; congruence|]. intros k Hk. cbn in Hk. lia.
  Qed.

  Lemma nth_set_eq {A} k (x : A) l : k < length l -> nth_error (set_nth k x l) k = Some x.
  Proof. revert k. induction l as [|y l IH]; intros [|k] H; cbn in *; try lia; [reflexivity | apply IH; lia]. Qed.
  Lemma nth_set_ne {A} k j (x : A) l : j <> k -> nth_error (set_nth k x l) j = nth_error l j.
  Proof. revert k j. induction l as [|y l IH]; intros [|k] [|j] H; cbn; try reflexivity; try congruence; apply IH; congruence. Qed.
  Lemma set_len {A} k (x : A) l : length (set_nth k x l) = length l.
  Proof. revert k. induction l as [|y l IH]; intros [|k]; cbn; [reflexivity..|]. f_equal. apply IH. Qed.
  Lemma set_nil {A} k (x : A) l : set_nth k x l = [] <-> l = [].
  Proof. destruct l, k; cbn; split; congruence. Qed.

  (** Anything the updater and the current goroutine do with the current channel. *)
  Lemma inv_intro s s' g' b' tail' c' p' cl' :
    Inv s -> gors E s <> [] -> f_chan E s' = f_chan E s -> f_start E s' = f_start E s -> f_end E s' = f_end E s ->
    gors E s' = set_nth (f_chan E s) g' (gors E s) -> chans E s' = set_nth (f_chan E s) (mk_chan E b' cl') (chans E s) ->
    dead E s' = false -> truthful s' -> taking s' ->
    b' = sent s' c' p' ++ tail' -> (0 <= c' <= p')%Z -> (p' <= count s')%Z -> at_work s' g' tail' p' cl' -> (running E s' = true -> last_size E s' = pos s' c') ->
    (f_stop E s' = true -> g' = Gone E) -> Inv s'.
  Proof.
    intros (Hd & Ht & Hl & Htk & Hr & Hc & Ho) Hne Efc Efs Efe Egs Ecs Hd' Ht' Htk' Eb Hcp Hpc Ha Hls Hst. destruct (Hc Hne) as (Hf & _).
    split; [exact Hd'|]. split; [exact Ht'|]. split; [rewrite Egs, Ecs, !set_len; exact Hl|]. split; [exact Htk'|].
    split; [rewrite Egs; intros X; apply set_nil in X; congruence|]. split.
    - intros _. rewrite Egs, set_len, Efc. split; [exact Hf|]. exists g', b', tail', c', p', cl'. rewrite Egs, Ecs, Efc, !nth_set_eq by lia. split; [reflexivity|]. auto 10.
    - intros k Hk. rewrite Efc in Hk. destruct (Ho k Hk) as [X|[X Y]]; [left | right]; rewrite ?Egs, ?Ecs, !nth_set_ne by lia; auto.
  Qed.

  Lemma set_same {A} k (l : list A) x : nth_error l k = Some x -> set_nth k x l = l.
  Proof. revert k. induction l as [|y l IH]; intros [|k] H; cbn in *; try congruence. f_equal. exact (IH k H). Qed.

  Lemma sent_snoc s c p : (c <= p)%Z -> sent s c (p + 1) = sent s c p ++ [Some (batch s p)].
  Proof.
    intros H. unfold sent. replace (p + 1 - 1)%Z with p by lia. rewrite (entries_app _ c (p - 1) p) by lia. f_equal.
    replace (p - 1 + 1)%Z with p by lia. unfold entries. replace (Z.to_nat (p - p + 1)) with 1 by lia. cbn [seq map]. do 3 f_equal. lia.
  Qed.
  Lemma sent_cons s c p : (c < p)%Z -> sent s c p = Some (batch s c) :: sent s (c + 1) p.
  Proof.
    intros H. unfold sent. rewrite (entries_app _ c c (p - 1)) by lia. unfold entries at 1. replace (Z.to_nat (c - c + 1)) with 1 by lia. cbn [seq map app]. do 3 f_equal. lia.
  Qed.
  Lemma sent_nil s c : sent s c c = [].
  Proof. unfold sent. apply entries_nil. lia. Qed.

  Lemma go_inv s k ok s' : Inv s -> go_step E log pbs s k ok = Some s' -> Inv s'.
  Proof.
    intros HI Hs. pose proof HI as (Hd & Ht & Hl & Htk & Hr & Hc & Ho). unfold go_step in Hs. destruct (nth_error (gors E s) k) as [g|] eqn:Eg; [|discriminate Hs].
    assert (Hne : gors E s <> []) by (intros X; rewrite X in Eg; destruct k; discriminate Eg).
    destruct (Hc Hne) as (Hf & g0 & b & tail & c & p & cl & Eg0 & Ec & Eb & Hcp & Hpc & Ha & Hls & Hst).
    assert (Hk : k < length (gors E s)) by (apply nth_error_Some; congruence).
    destruct (Nat.eq_dec k (f_chan E s)) as [->|Hkn].
    - rewrite Eg in Eg0. injection Eg0 as <-.
      assert (G : forall g', (f_stop E s = true -> g' = Gone E) -> at_work s g' tail p cl -> Inv (with_gor E s (f_chan E s) g')).
      { intros g' H1 H2. apply (inv_intro s _ g' b tail c p cl HI Hne); try reflexivity; cbn [with_gor f_chan f_start f_end gors chans dead running last_size f_stop]; auto.
        - symmetry. apply set_same. exact Ec.
      }
      destruct g as [|own i cnt|own i cnt r|own i cnt r|own i cnt r ch|own|]; cbn [at_work] in Ha.
      + injection Hs as <-. destruct Ha as (-> & -> & ->). assert (Hstop : f_stop E s = true -> False) by (intros X; specialize (Hst X); discriminate Hst).
        destruct (f_end E s <? f_start E s)%Z eqn:El.
        * apply G; [intros X; contradiction (Hstop X)|]. cbn. split; [reflexivity|]. split; [reflexivity|]. left. unfold count. rewrite El. auto.
        * apply G; [intros X; contradiction (Hstop X)|]. cbn. unfold count. rewrite El. auto.
      + destruct Ha as (-> & -> & -> & -> & ->). assert (Hstop : f_stop E s = true -> False) by (intros X; specialize (Hst X); discriminate Hst).
        destruct (Z.ltb_spec p (count s)) as [Hlt|Hge].
        * assert (Hi : (0 <= p < count s)%Z) by lia. rewrite (batch_go s p Hi) in Hs. destruct (pos_lt s p Hi) as (H1 & H2 & H3).
          replace (Z.min (f_end E s) (f_start E s + p * pbs + pbs - 1) <? f_start E s + p * pbs)%Z with false in Hs by (symmetry; apply Z.ltb_ge; lia).
          injection Hs as <-. apply G; [intros X; contradiction (Hstop X)|]. cbn. repeat split; auto. destruct ok; auto.
        * injection Hs as <-. apply G; [intros X; contradiction (Hstop X)|]. cbn. split; [reflexivity|]. split; [reflexivity|]. left. split; [lia | reflexivity].
      + destruct Ha as (-> & -> & -> & Hlt & Hr' & -> & ->). assert (Hstop : f_stop E s = false) by (destruct (f_stop E s); [specialize (Hst eq_refl); discriminate Hst | reflexivity]).
        destruct r as [l|].
        * rewrite Hstop in Hs. injection Hs as <-. apply G; [congruence|]. cbn. auto 10.
        * injection Hs as <-. apply G; [congruence|]. cbn. auto 10.
      + destruct Ha as (-> & -> & -> & Hlt & Hr' & -> & ->). assert (Hstop : f_stop E s = false) by (destruct (f_stop E s); [specialize (Hst eq_refl); discriminate Hst | reflexivity]).
        injection Hs as <-. apply G; [congruence|]. cbn. auto 10.
      + destruct Ha as (-> & -> & -> & -> & Hlt & Hr' & -> & ->). assert (Hstop : f_stop E s = false) by (destruct (f_stop E s); [specialize (Hst eq_refl); discriminate Hst | reflexivity]).
        rewrite Ec in Hs. cbn [closed buf] in Hs. destruct (length b <? preload); [|discriminate Hs]. injection Hs as <-. rewrite app_nil_r in Eb.
        destruct Hr' as [->| ->].
        * apply (inv_intro s _ (Ending E (f_chan E s)) (b ++ [None]) [None] c p false HI Hne); try reflexivity; cbn [with_gor with_chan f_chan f_start f_end gors chans dead running last_size f_stop]; auto.
          -- rewrite Eb. reflexivity.
          -- cbn. split; [reflexivity|]. split; [reflexivity|]. right. left. reflexivity.
          -- rewrite Hstop. discriminate.
        * apply (inv_intro s _ (Loop E (f_chan E s) (p + 1) (count s)) (b ++ [Some (batch s p)]) [] c (p + 1)%Z false HI Hne); try reflexivity; cbn [with_gor with_chan f_chan f_start f_end gors chans dead running last_size f_stop]; auto; try lia.
          -- rewrite app_nil_r. transitivity (sent s c (p + 1)); [|reflexivity]. rewrite (sent_snoc s c p) by lia. rewrite Eb. reflexivity.
          -- change (p + 1 <= count s)%Z. lia.
          -- cbn. auto 10.
          -- rewrite Hstop. discriminate.
      + destruct Ha as (-> & -> & Hend). assert (Hstop : f_stop E s = false) by (destruct (f_stop E s); [specialize (Hst eq_refl); discriminate Hst | reflexivity]).
        rewrite Ec in Hs. cbn [closed buf] in Hs. injection Hs as <-.
        apply (inv_intro s _ (Gone E) b tail c p true HI Hne); try reflexivity; cbn [with_gor with_chan f_chan f_start f_end gors chans dead running last_size f_stop]; auto.
        cbn. split; [reflexivity | exact Hend].
      + discriminate Hs.
    - destruct (Ho k ltac:(lia)) as [X|[X (b1 & Y)]]; rewrite Eg in X; injection X as ->; [discriminate Hs|].
      rewrite Y in Hs. cbn [closed buf] in Hs. injection Hs as <-.
      split; [exact Hd|]. split; [exact Ht|]. split; [cbn; rewrite !set_len; exact Hl|]. split; [exact Htk|]. split; [cbn; rewrite set_nil; exact Hr|]. split.
      + intros _. cbn [with_gor with_chan gors f_chan]. rewrite set_len. split; [exact Hf|]. exists g0, b, tail, c, p, cl. cbn [with_gor with_chan gors f_chan chans running last_size f_stop].
        rewrite !nth_set_ne by lia. auto 10.
      + intros j Hj. cbn in Hj. unfold old. cbn [with_gor with_chan gors f_chan chans]. destruct (Nat.eq_dec j k) as [->|Hjk].
        * left. apply nth_set_eq. exact Hk.
        * rewrite !nth_set_ne by congruence. exact (Ho j Hj).
  Qed.

  Lemma step_inv s a s' : Inv s -> match a with Cycle _ => Forall over (gors E s) | _ => True end -> step s a = Some s' -> Inv s'.
  Proof.
    intros HI Hp Hs. pose proof HI as (Hd & Ht & Hl & Htk & Hr & Hc & Ho). unfold fetch_step in Hs. rewrite Hd in Hs.
    assert (Hne : running E s = true -> gors E s <> []) by (intros X Y; specialize (Hr Y); congruence).
    destruct a as [k ok|size|progress| | |].
    - exact (go_inv s k ok s' HI Hs).
    - destruct (running E s) eqn:Er; [discriminate Hs|]. injection Hs as <-.
      split; [reflexivity|]. split; [exact Ht|]. split; [cbn; rewrite !app_length; cbn; lia|]. split.
      { intros _. cbn. split; [lia|]. split; [lia|]. split; [|lia]. exists (inserted E s). rewrite entries_nil by lia. rewrite app_nil_r. auto. }
      split; [cbn; intros X; apply app_eq_nil in X as [_ X]; discriminate X|]. split.
      + intros _. cbn [gors f_chan]. rewrite app_length. cbn [length]. split; [lia|]. exists (Fresh E), [], [], 0%Z, 0%Z, false. cbn [gors f_chan chans running last_size f_stop].
        split; [rewrite Hl, nth_error_app2 by lia; rewrite Nat.sub_diag; reflexivity|]. split; [rewrite nth_error_app2 by lia; rewrite Nat.sub_diag; reflexivity|].
        split; [rewrite sent_nil; reflexivity|]. split; [lia|]. split.
        { unfold count. cbn [f_start f_end]. destruct (Z.ltb_spec (size - 1) (recorded E s)); [lia|]. assert (0 <= (size - 1 - recorded E s) / pbs)%Z by (apply Z.div_pos; lia). lia. }
        split; [cbn; auto|]. split; [|discriminate]. intros _. unfold pos. cbn. lia.
      + intros k Hk. cbn in Hk. unfold old. cbn [gors chans]. rewrite !nth_error_app1 by lia.
        destruct (nth_error (gors E s) k) as [g|] eqn:Eg; [|apply nth_error_None in Eg; lia].
        assert (Hg0 : gors E s <> []) by (intros X; rewrite X in Eg; destruct k; discriminate Eg). destruct (Hc Hg0) as (Hf & g1 & b & tail & c & p & cl & Eg1 & Ec & Eb & Hcp & Hpc & Ha & _).
        destruct (Nat.eq_dec k (f_chan E s)) as [->|Hkn].
        * rewrite Eg in Eg1. injection Eg1 as <-. rewrite Forall_forall in Hp. specialize (Hp g (nth_error_In _ _ Eg)). destruct g; try contradiction Hp.
          -- right. cbn in Ha. destruct Ha as (-> & -> & _). split; [reflexivity|]. eauto.
          -- left. reflexivity.
        * destruct (Ho k ltac:(lia)) as [X|[X Y]]; rewrite Eg in X; [left; exact X | right; split; [exact X | exact Y]].
    - destruct (running E s) eqn:Er; [|discriminate Hs]. destruct (Hc (Hne eq_refl)) as (Hf & g & b & tail & c & p & cl & Eg & Ec & Eb & Hcp & Hpc & Ha & Hls & Hst).
      rewrite Ec in Hs. cbn [buf closed] in Hs. destruct (Htk Er) as (Htg & Hsl & (pre & Hins & Hpre) & Hrec).
      destruct b as [|r rest].
      + destruct cl; [|discriminate Hs]. injection Hs as <-.
        assert (g = Gone E) as ->. { destruct g; cbn in Ha; try reflexivity; exfalso; decompose [and] Ha; discriminate. }
        apply (inv_intro s _ (Gone E) [] tail c p true HI (Hne eq_refl)); try reflexivity; cbn [with_stop idle f_chan f_start f_end gors chans dead running last_size f_stop]; auto.
        * symmetry. apply set_same. exact Eg.
        * symmetry. apply set_same. exact Ec.
        * intros X. discriminate X.
        * cbn in *. destruct Ha as [H1 H2]. split; [reflexivity|]. destruct H2 as [H2|[H2|[_ H2]]]; [auto | auto | congruence].
      + destruct (Z.eq_dec c p) as [<-|Hcn].
        * (* the error result *)
          rewrite sent_nil in Eb. cbn [app] in Eb. subst tail.
          assert (r = None /\ rest = [] /\ (g = Ending E (f_chan E s) /\ cl = false \/ g = Gone E /\ cl = true)) as (-> & -> & Hg).
          { destruct g; cbn in Ha; decompose [and or] Ha; subst; try discriminate; repeat match goal with H : _ :: _ = [None] |- _ => injection H as -> -> end; auto. }
          injection Hs as <-.
          apply (inv_intro s _ g [] [] c c cl HI (Hne eq_refl)); try reflexivity; cbn [with_chan idle f_chan f_start f_end gors chans dead running last_size f_stop]; auto.
          -- symmetry. apply set_same. exact Eg.
          -- intros X. discriminate X.
          -- rewrite sent_nil. reflexivity.
          -- destruct Hg as [[-> ->]|[-> ->]]; cbn; auto 10.
        * rewrite (sent_cons s c p) in Eb by lia. cbn [app] in Eb. injection Eb as -> ->.
          injection Hs as <-. assert (Hi : (0 <= c < count s)%Z) by lia. pose proof (batch_length s c Hi) as Hbl. destruct (pos_lt s c Hi) as (P1 & P2 & P3).
          set (s1 := with_chan E s (f_chan E s) (mk_chan E (sent s (c + 1) p ++ tail) cl)).
          assert (Hla : (last_size E s + Z.of_nat (length (batch s c)))%Z = pos s (c + 1)) by (rewrite (Hls Er), Hbl; lia).
          assert (Hcov : inserted E s ++ batch s c = pre ++ entries E log (f_start E s) (pos s (c + 1) - 1)).
          { rewrite Hins, <- app_assoc. f_equal. rewrite (entries_app log (f_start E s) (last_size E s - 1) (pos s (c + 1) - 1)) by (rewrite (Hls Er); lia). f_equal. unfold batch. f_equal. rewrite (Hls Er). lia. }
          apply (inv_intro s (took E s1 (batch s c) progress) g (sent s (c + 1) p ++ tail) tail (c + 1)%Z p cl HI (Hne eq_refl)); try reflexivity; cbn [took s1 with_chan f_chan f_start f_end gors chans dead running last_size f_stop inserted recorded target]; auto; try lia.
          -- symmetry. apply set_same. exact Eg.
          -- intros j. cbn [took s1 with_chan recorded inserted last_size target]. destruct (Z.eqb_spec (last_size E s + Z.of_nat (length (batch s c))) (target E s)) as [Hfull|Hnf].
             ++ intros Hj. rewrite Hcov. apply in_or_app. destruct (Z_lt_le_dec j (f_start E s)) as [X|X]; [left; apply Hpre; lia|]. right. apply entries_in. exists j. split; [lia | reflexivity].
             ++ intros Hj. apply in_or_app. left. apply Ht. exact Hj.
          -- intros Hrun. cbn [took s1 with_chan recorded inserted last_size target f_start f_end]. rewrite Hla. split; [exact Htg|]. split; [lia|]. split; [exists pre; auto|].
             intros _ Heq. rewrite Heq, Z.eqb_refl. reflexivity.
          -- unfold at_work in *. destruct g; cbn [took s1 with_chan f_chan running]; auto; decompose [and or] Ha; auto 10; congruence.
    - destruct (running E s) eqn:Er; [|discriminate Hs]. destruct (Hc (Hne eq_refl)) as (Hf & g & b & tail & c & p & cl & Eg & Ec & Eb & Hcp & Hpc & Ha & Hls & Hst).
      rewrite Ec in Hs. destruct b as [|[l|] rest]; [discriminate Hs | | discriminate Hs]. injection Hs as <-.
      destruct (Z.eq_dec c p) as [<-|Hcn].
      { exfalso. rewrite sent_nil in Eb. cbn in Eb. subst tail. destruct g; cbn in Ha; decompose [and or] Ha; discriminate. }
      rewrite (sent_cons s c p) in Eb by lia. cbn [app] in Eb. injection Eb as -> ->.
      apply (inv_intro s _ g (sent s (c + 1) p ++ tail) tail (c + 1)%Z p cl HI (Hne eq_refl)); try reflexivity; cbn [with_chan idle f_chan f_start f_end gors chans dead running last_size f_stop]; auto; try lia.
      + symmetry. apply set_same. exact Eg.
      + intros X. discriminate X.
      + unfold at_work in *. destruct g; cbn [with_chan idle f_chan running]; auto; decompose [and or] Ha; auto 10.
    - destruct (running E s) eqn:Er; [|discriminate Hs]. destruct (Hc (Hne eq_refl)) as (Hf & g & b & tail & c & p & cl & Eg & Ec & Eb & Hcp & Hpc & Ha & Hls & Hst). injection Hs as <-.
      apply (inv_intro s _ g b tail c p cl HI (Hne eq_refl)); try reflexivity; cbn [idle f_chan f_start f_end gors chans dead running last_size f_stop]; auto; try lia.
      + symmetry. apply set_same. exact Eg.
      + symmetry. apply set_same. exact Ec.
      + intros X. discriminate X.
      + unfold at_work in *. destruct g; cbn [idle f_chan running]; auto; decompose [and or] Ha; auto 10.
    - injection Hs as <-. split; [reflexivity|]. split; [exact Ht|]. split; [reflexivity|]. split; [intros X; discriminate X|]. split; [reflexivity|]. split; [intros X; cbn in X; congruence|]. intros k Hk. cbn in Hk. lia.
  Qed.

  Lemma patient_inv l : forall s, Inv s -> patient l s -> Inv (run step s l).
  Proof.
    induction l as [|a l IH]; intros s HI Hp; [exact HI|]. destruct Hp as [Ha Hp]. change (run step s (a :: l)) with (run step (do step s a) l). apply IH; [|exact Hp].
    unfold do. destruct (step s a) as [s'|] eqn:E1; [|exact HI]. exact (step_inv s a s' HI Ha E1).
  Qed.

  (** ** The end of an update *)
  Definition quiet (a : act) : Prop := match a with Go _ _ | Recv _ => True | _ => False end.
  Definition weight (n : nat) (g : gor) : nat :=
    match g with
    | Fresh _ => 5 * n + 3
    | Loop _ _ i _ => 5 * (n - Z.to_nat i) + 2
    | Got _ _ i _ _ => 5 * (n - Z.to_nat i) + 1
    | Ready _ _ i _ _ => 5 * (n - Z.to_nat i)
    | Put _ _ i _ _ _ => 5 * (n - Z.to_nat i) - 1
    | Ending _ _ => 1
    | Gone _ => 0
    end.
  Definition mu (s : sys) : nat :=
    list_sum (map (weight (Z.to_nat (count s))) (gors E s)) + list_sum (map (fun c => length (buf E c)) (chans E s)) + (if running E s then 1 else 0).

  Lemma sum_set {A} (f : A -> nat) k x y l : nth_error l k = Some x -> list_sum (map f (set_nth k y l)) + f x = list_sum (map f l) + f y.
  Proof.
    revert k. induction l as [|z l IH]; intros [|k] H; cbn in *; try discriminate H; [injection H as ->; lia|]. specialize (IH k H). cbn in IH. unfold list_sum in *. cbn. lia.
  Qed.

  Lemma quiet_mu s a s' : Inv s -> quiet a -> step s a = Some s' -> mu s' < mu s.
  Proof.
    intros HI Hq Hs. pose proof HI as (Hd & Ht & Hl & Htk & Hr & Hc & Ho). unfold fetch_step in Hs. rewrite Hd in Hs. destruct a as [k ok|size|progress| | |]; try contradiction Hq.
    - unfold go_step in Hs. destruct (nth_error (gors E s) k) as [g|] eqn:Eg; [|discriminate Hs].
      assert (Hne : gors E s <> []) by (intros X; rewrite X in Eg; destruct k; discriminate Eg).
      destruct (Hc Hne) as (Hf & g0 & b & tail & c & p & cl & Eg0 & Ec & Eb & Hcp & Hpc & Ha & Hls & Hst).
      assert (Hk : k < length (gors E s)) by (apply nth_error_Some; congruence).
      assert (G : forall g', weight (Z.to_nat (count s)) g' < weight (Z.to_nat (count s)) g -> mu (with_gor E s k g') < mu s).
      { intros g' Hw. unfold mu. cbn [with_gor gors chans running]. change (count (with_gor E s k g')) with (count s).
        pose proof (sum_set (weight (Z.to_nat (count s))) k g g' (gors E s) Eg). lia. }
      destruct (Nat.eq_dec k (f_chan E s)) as [->|Hkn].
      + rewrite Eg in Eg0. injection Eg0 as <-.
        destruct g as [|own i cnt|own i cnt r|own i cnt r|own i cnt r ch|own|]; cbn [at_work] in Ha.
        * injection Hs as <-. apply G. unfold count. destruct (f_end E s <? f_start E s)%Z; cbn [weight]; [|change (Z.to_nat 0) with 0]; lia.
        * destruct Ha as (-> & -> & -> & -> & ->). destruct (Z.ltb_spec p (count s)) as [Hlt|Hge].
          -- assert (Hi : (0 <= p < count s)%Z) by lia. destruct (pos_lt s p Hi) as (H1 & H2 & H3).
             replace (Z.min (f_end E s) (f_start E s + p * pbs + pbs - 1) <? f_start E s + p * pbs)%Z with false in Hs by (symmetry; apply Z.ltb_ge; lia).
             injection Hs as <-. apply G. cbn [weight]. lia.
          -- injection Hs as <-. apply G. cbn [weight]. lia.
        * destruct Ha as (-> & -> & -> & Hlt & Hr' & -> & ->). assert (Hstop : f_stop E s = false) by (destruct (f_stop E s); [specialize (Hst eq_refl); discriminate Hst | reflexivity]).
          destruct r as [l|]; [rewrite Hstop in Hs|]; injection Hs as <-; apply G; cbn [weight]; lia.
        * destruct Ha as (-> & -> & -> & Hlt & Hr' & -> & ->). injection Hs as <-. apply G. cbn [weight]. lia.
        * destruct Ha as (-> & -> & -> & -> & Hlt & Hr' & -> & ->). rewrite Ec in Hs. cbn [closed buf] in Hs. destruct (length b <? preload); [|discriminate Hs]. injection Hs as <-.
          unfold mu. cbn [with_gor with_chan gors chans running].
          match goal with |- context [count ?x] => change (count x) with (count s) end.
          match goal with |- context [set_nth (f_chan E s) ?g' (gors E s)] => pose proof (sum_set (weight (Z.to_nat (count s))) (f_chan E s) _ g' (gors E s) Eg) as S1 end.
          pose proof (sum_set (fun c => length (buf E c)) (f_chan E s) _ (mk_chan E (b ++ [r]) false) (chans E s) Ec) as S2. cbn [buf] in S2. rewrite app_length in S2. cbn [length] in S2.
          destruct r as [l|]; cbn [weight] in S1; lia.
        * destruct Ha as (-> & -> & Hend). rewrite Ec in Hs. cbn [closed buf] in Hs. injection Hs as <-.
          unfold mu. cbn [with_gor with_chan gors chans running]. match goal with |- context [count ?x] => change (count x) with (count s) end.
          pose proof (sum_set (weight (Z.to_nat (count s))) (f_chan E s) _ (Gone E) (gors E s) Eg) as S1. cbn [weight] in S1.
          pose proof (sum_set (fun c => length (buf E c)) (f_chan E s) _ (mk_chan E b true) (chans E s) Ec) as S2. cbn [buf] in S2. lia.
        * discriminate Hs.
      + destruct (Ho k ltac:(lia)) as [X|[X (b1 & Y)]]; rewrite Eg in X; injection X as ->; [discriminate Hs|].
        rewrite Y in Hs. cbn [closed buf] in Hs. injection Hs as <-.
        unfold mu. cbn [with_gor with_chan gors chans running]. match goal with |- context [count ?x] => change (count x) with (count s) end.
        pose proof (sum_set (weight (Z.to_nat (count s))) k _ (Gone E) (gors E s) Eg) as S1. cbn [weight] in S1.
        pose proof (sum_set (fun c => length (buf E c)) k _ (mk_chan E b1 true) (chans E s) Y) as S2. cbn [buf] in S2. lia.
    - destruct (running E s) eqn:Er; [|discriminate Hs]. destruct (nth_error (chans E s) (f_chan E s)) as [[b cl]|] eqn:Ec; [|discriminate Hs].
      cbn [buf closed] in Hs. destruct b as [|r rest].
      + destruct cl; [|discriminate Hs]. injection Hs as <-. unfold mu. cbn [with_stop idle gors chans running]. rewrite Er. match goal with |- context [count ?x] => change (count x) with (count s) end. lia.
      + pose proof (sum_set (fun c => length (buf E c)) (f_chan E s) _ (mk_chan E rest cl) (chans E s) Ec) as S2. cbn [buf length] in S2.
        destruct r as [l|]; injection Hs as <-; unfold mu; cbn [took with_chan idle gors chans running]; rewrite Er; match goal with |- context [count ?x] => change (count x) with (count s) end; [|lia].
        destruct (progress || _); lia.
  Qed.
  Lemma quiet_bound l : forall s, Inv s -> Forall quiet l -> effective step s l <= mu s.
  Proof.
    induction l as [|a l IH]; intros s HI Hq; [cbn; lia|]. inversion Hq as [|? ? Ha Hl]; subst. cbn [effective].
    destruct (step s a) as [s'|] eqn:E1; [|exact (IH s HI Hl)]. pose proof (quiet_mu s a s' HI Ha E1).
    assert (Inv s') by (apply (step_inv s a s' HI); [destruct a; try exact I; contradiction Ha | exact E1]). specialize (IH s' H0 Hl). lia.
  Qed.
  Lemma quiet_progress s : Inv s -> running E s = true -> exists a, quiet a /\ step s a <> None.
  Proof.
    intros HI Er. pose proof HI as (Hd & Ht & Hl & Htk & Hr & Hc & Ho). assert (Hne : gors E s <> []) by (intros Y; specialize (Hr Y); congruence).
    destruct (Hc Hne) as (Hf & g & b & tail & c & p & cl & Eg & Ec & Eb & Hcp & Hpc & Ha & Hls & Hst).
    destruct b as [|r rest].
    - destruct cl.
      + exists (Recv true). split; [exact I|]. unfold fetch_step. rewrite Hd, Er, Ec. discriminate.
      + exists (Go (f_chan E s) true). split; [exact I|]. unfold fetch_step. rewrite Hd. unfold go_step. rewrite Eg.
        destruct g as [|own i cnt|own i cnt r|own i cnt r|own i cnt r ch|own|]; cbn [at_work] in Ha.
        * discriminate.
        * destruct (i <? cnt)%Z; [|discriminate]. destruct (_ <? _)%Z; discriminate.
        * destruct r; [destruct (f_stop E s)|]; discriminate.
        * discriminate.
        * destruct Ha as (_ & -> & _). rewrite Ec. discriminate.
        * destruct Ha as (-> & _). rewrite Ec. discriminate.
        * destruct Ha as [X _]. discriminate X.
    - exists (Recv true). split; [exact I|]. unfold fetch_step. rewrite Hd, Er, Ec. cbn [buf]. destruct r; discriminate.
  Qed.
  (** The updater sees the end of the fetch: an empty, closed channel. *)
  Lemma drained s : Inv s -> running E s = true -> nth_error (chans E s) (f_chan E s) = Some (mk_chan E [] true) ->
    (exists pre, inserted E s = pre ++ entries E log (f_start E s) (target E s - 1)) /\
    ((f_start E s < target E s)%Z -> recorded E s = target E s).
  Proof.
    intros HI Er Hch. pose proof HI as (Hd & Ht & Hl & Htk & Hr & Hc & Ho). assert (Hne : gors E s <> []) by (intros Y; specialize (Hr Y); congruence).
    destruct (Hc Hne) as (Hf & g & b & tail & c & p & cl & Eg & Ec & Eb & Hcp & Hpc & Ha & Hls & Hst).
    rewrite Hch in Ec. injection Ec as <- <-.
    destruct (Htk Er) as (Htg & Hsl & (pre & Hins & Hpre) & Hrec).
    assert (g = Gone E) as ->. { destruct g; cbn in Ha; try reflexivity; exfalso; decompose [and] Ha; discriminate. }
    symmetry in Eb. apply app_eq_nil in Eb as [E1 E2]. subst tail. cbn in Ha.
    assert (p = count s) as ->. { destruct Ha as [_ [[X _]|[X|[_ X]]]]; [exact X | discriminate X | congruence]. }
    assert (c = count s) as ->. { destruct (Z.eq_dec c (count s)) as [X|X]; [exact X|]. rewrite (sent_cons s c (count s)) in E1 by lia. discriminate E1. }
    specialize (Hls Er). rewrite pos_count in Hls. split.
    - exists pre. rewrite Hins. f_equal. rewrite Htg. destruct (Z_lt_le_dec (f_end E s) (f_start E s)) as [X|X]; [rewrite !entries_nil by lia; reflexivity | f_equal; lia].
    - intros X. apply Hrec; lia.
  Qed.
End Fetch.
