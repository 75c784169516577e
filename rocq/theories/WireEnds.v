(** Every output of a resumed stage has its reader, every error its way back; everything ends, except the goroutines of the skipped sink. *)
From Verif Require Import Base BaseLemmas WireModel WireProofs WireTop WireSpec.

Scheme stopped_ind2 := Minimality for stopped Sort Prop with closed_ind2 := Minimality for closed Sort Prop.
Combined Scheme ends_ind from stopped_ind2, closed_ind2.

Section Results.
  Variable S W C N : nat.
  Variable n : net.
  Hypothesis Hw : wired S W C N n.
  Notation valid := (valid S W C N).
  Notation live := (live S W C N).
  Lemma live_valid s : live s -> valid s. Proof. destruct s; cbn; tauto. Qed.

  Definition gor_in (g : gor) : Prop :=
    match g with
    | GPump s => s = FSrc
    | GDrain a b => exists s, live s /\ is_sink s = true /\ a = CDrain s /\ b = CDrainErr s
    | GDist k ps => (k = 0 /\ ps = [FSrc]) \/ (k = 1 /\ ps = each Split S) \/ (k = 2 /\ ps = each Parse W) \/ (k = 3 /\ ps = each Dechain C)
    | GCol k t => (k = 0 /\ In t (each Split S)) \/ (k = 1 /\ In t (each Parse W)) \/ (k = 2 /\ In t (each Dechain C)) \/ (k = 3 /\ t = FSink)
    | GAggClose k ts => (k = 0 /\ ts = each Split S) \/ (k = 1 /\ ts = each Parse W) \/ (k = 2 /\ ts = each Dechain C) \/ (k = 3 /\ ts = [FSink])
    | GErr from to => In from (fin_nerr N DSrc) /\ to = errs C
    | GErrClose from to => from = fin_nerr N DSrc /\ to = errs C
    | GFwd from to => In from (chans C) /\ to = fin_out N DSrc
    | GFwdClose from to => from = chans C /\ to = fin_out N DSrc
    end.
  Lemma criss_in k ps ts g : In g (criss_gos k ps ts) <-> g = GDist k ps \/ (exists t, In t ts /\ g = GCol k t) \/ g = GAggClose k ts.
  Proof.
    unfold criss_gos. rewrite !in_app_iff, in_map_iff. cbn [In]. split.
    - intros [[<-|[]]|[(t & <- & H)|[<-|[]]]]; [auto | right; left; exists t; auto | auto].
    - intros [->|[(t & H & ->)| ->]]; [auto | right; left; exists t; auto | auto].
  Qed.
  Lemma gos_in g : In g (gos n) <-> gor_in g.
  Proof.
    rewrite (w_gos _ _ _ _ _ Hw). unfold fin_gos, file_gos. rewrite !in_app_iff, !criss_in, !in_map_iff, in_flat_map. cbn [In].
    assert (Hp : (exists x, In x (joined S W C N) /\ In g (prep_gos x)) <-> match g with GPump s => s = FSrc | GDrain a b => exists s, live s /\ is_sink s = true /\ a = CDrain s /\ b = CDrainErr s | _ => False end).
    { split.
      - intros (x & Hx & Hg). apply joined_in in Hx. unfold prep_gos in Hg. destruct (is_source x) eqn:E1; [|destruct (is_sink x) eqn:E2; [|destruct Hg]].
        + destruct Hg as [<-|[]]. destruct x; try discriminate E1; [reflexivity | destruct Hx].
        + destruct Hg as [<-|[]]. exists x. auto.
      - destruct g; try contradiction.
        + intros ->. exists FSrc. split; [apply joined_in; exact I | left; reflexivity].
        + intros (s & H1 & H2 & -> & ->). exists s. split; [apply joined_in; exact H1|]. unfold prep_gos. destruct s; try discriminate H2; left; reflexivity. }
    rewrite Hp. split.
    - intros H. repeat match goal with X : _ \/ _ |- _ => destruct X | X : exists _, _ |- _ => destruct X | X : _ /\ _ |- _ => destruct X | X : False |- _ => destruct X end; subst; cbn [gor_in In] in *;
        repeat match goal with X : _ \/ False |- _ => destruct X as [<-|[]] end; try (destruct g; try contradiction; assumption); auto 8.
    - destruct g as [s|a b|k ps|k t|k ts|from to|from to|from to|from to]; cbn [gor_in]; intros H.
      + auto.
      + auto.
      + destruct H as [[-> ->]|[[-> ->]|[[-> ->]|[-> ->]]]]; right; left; auto 10.
      + right; left. destruct H as [[-> H]|[[-> H]|[[-> H]|[-> ->]]]].
        * left. right. left. exists t. auto.
        * right. left. right. left. exists t. auto.
        * do 2 right. left. right. left. exists t. auto.
        * do 3 right. right. left. exists FSink. cbn. auto.
      + destruct H as [[-> ->]|[[-> ->]|[[-> ->]|[-> ->]]]]; right; left; auto 10.
      + destruct H as [H ->]. do 2 right. left. exists from. auto.
      + destruct H as [-> ->]. do 3 right. left. auto.
      + destruct H as [H ->]. do 4 right. left. exists from. auto.
      + destruct H as [-> ->]. do 5 right. auto.
  Qed.

  (** ** Data and errors *)
  Lemma in_map_seq {A} (f : nat -> A) k x : In x (map f (seq 0 k)) <-> exists i, i < k /\ x = f i.
  Proof.
    rewrite in_map_iff. split.
    - intros (i & <- & H). apply in_seq in H. exists i. split; [lia | reflexivity].
    - intros (i & H & ->). exists i. split; [reflexivity|]. apply in_seq. lia.
  Qed.
  Lemma nth_map_some {A} (f : nat -> A) k o x : nth_error (map f (seq 0 k)) o = Some x <-> o < k /\ x = f o.
  Proof.
    destruct (Nat.lt_ge_cases o k) as [H|H].
    - rewrite nth_map_seq by exact H. split; [intros E; injection E as <-; auto | intros (_ & ->); reflexivity].
    - rewrite (proj2 (nth_error_None _ _)) by (rewrite map_length, seq_length; exact H). split; [discriminate | lia].
  Qed.
  Lemma nth_one {A} (y : A) o x : nth_error [y] o = Some x <-> o = 0 /\ x = y.
  Proof. destruct o as [|o]; cbn; [|destruct o; cbn]; split; try (intros E; injection E as <-; auto); try discriminate; intuition (try lia; subst; auto). Qed.
  Lemma in_dsrc_out c : In (Some c) (fin_out N DSrc) <-> exists b, b < N /\ (c = CIn (Batcher b) 0 \/ c = CIn (Extractor b) 0).
  Proof.
    cbn [fin_out]. rewrite in_app_iff, !in_map_seq. split.
    - intros [(i & H & E)|(i & H & E)]; injection E as ->; exists i; auto.
    - intros (b & H & [->| ->]); [left | right]; exists b; auto.
  Qed.
  Lemma in_dsrc_err c : In c (fin_nerr N DSrc) <-> exists b, b < N /\ (c = Some (CErr (Batcher b)) \/ c = Some (CErr (Extractor b))).
  Proof.
    cbn [fin_nerr]. rewrite in_app_iff, !in_map_seq. split.
    - intros [(i & H & E)|(i & H & E)]; subst; exists i; auto.
    - intros (b & H & [->| ->]); [left | right]; exists b; auto.
  Qed.
  Lemma fwd_in a to : In (GFwd a to) (gos n) <-> exists i, i < C /\ a = CNewData i /\ to = fin_out N DSrc.
  Proof. rewrite gos_in. cbn [gor_in]. unfold chans. rewrite in_map_seq. split; [intros [(i & H & ->) ->]; exists i; auto | intros (i & H & -> & ->); split; [exists i; auto | reflexivity]]. Qed.

  Ltac crush := repeat match goal with X : _ \/ _ |- _ => destruct X | X : exists _, _ |- _ => destruct X | X : _ /\ _ |- _ => destruct X | X : False |- _ => destruct X end; subst; try discriminate.
  (** the channels read by a stage *)
  Lemma inc_at t i b : valid t -> (nth_error (inc n t) i = Some (Some b) <->
    match t with
    | Split _ => i = 0 /\ b = CShared 0 | Parse _ => i = 0 /\ b = CShared 1 | Dechain _ => i = 0 /\ b = CShared 2 | FSink => i = 0 /\ b = CShared 3
    | DomBatcher _ => i < N /\ b = CIn t i | _ => i = 0 /\ b = CIn t 0
    end).
  Proof.
    intros Hv. rewrite (w_inc _ _ _ _ _ Hw t Hv). destruct t; cbn [fin_inc]; rewrite ?nth_one, ?nth_map_some; intuition congruence.
  Qed.
  Lemma out_at s o a : live s -> (nth_error (out n s) o = Some (Some a) <->
    match s with
    | FSrc => o = 0 /\ a = CShared 0 | Split _ => o = 0 /\ a = CShared 1 | Parse _ => o = 0 /\ a = CShared 2 | Dechain i => o = 0 /\ a = CNewData i
    | Batcher i => o = 0 /\ a = CIn (CertCsv i) 0 | CertCsv i => o = 0 /\ a = CIn (CertIns i) 0 | CertIns i => o = 0 /\ a = CIn (CertRem i) 0
    | Extractor i => o < N /\ a = CIn (DomBatcher o) i
    | DomBatcher i => o = 0 /\ a = CIn (DomCsv i) 0 | DomCsv i => o = 0 /\ a = CIn (DomIns i) 0 | DomIns i => o = 0 /\ a = CIn (DomRem i) 0
    | CertRem _ | DomRem _ => o = 0 /\ a = CDrain s
    | _ => False
    end).
  Proof.
    intros Hv. rewrite (w_out _ _ _ _ _ Hw s (live_valid s Hv)). destruct s; cbn [fin_out]; try (destruct Hv; fail); rewrite ?nth_one, ?nth_map_some; intuition congruence.
  Qed.
  Theorem data_links s o t i : live s -> live t -> (delivers n s o t i <-> flow S W C N s o t i).
  Proof.
    intros Hs Ht. unfold delivers, passes. split.
    - intros (a & b & Ha & Hb & Hp). apply (out_at s o a Hs) in Ha. apply (inc_at t i b (live_valid t Ht)) in Hb.
      destruct Hp as [<-|(to & Hg & Hto)].
      + destruct s; cbn in Hs; try contradiction; destruct Ha as [Ho Ha]; destruct t; cbn in Ht; try contradiction; destruct Hb as [Hi Hb]; subst; try discriminate Hb; cbn [flow];
          try (injection Hb as <-; repeat split; auto; fail); repeat split; auto.
      + apply fwd_in in Hg as (x & Hx & -> & ->). apply in_dsrc_out in Hto as (y & Hy & Hto).
        destruct s; cbn in Hs; try contradiction; destruct Ha as [Ho Ha]; try discriminate Ha. injection Ha as <-.
        destruct Hto as [-> | ->]; destruct t; cbn in Ht; try contradiction; destruct Hb as [Hi Hb]; try discriminate Hb; injection Hb as ->; cbn [flow]; auto.
    - intros H. destruct s; cbn in Hs; try contradiction; destruct t; cbn in Ht; try contradiction; cbn [flow] in H; try contradiction; crush;
        first [ solve [eexists; eexists; split; [apply out_at; cbn; [assumption || exact I | split; [first [assumption | exact eq_refl] | exact eq_refl]]|]; split; [apply inc_at; cbn; [assumption || exact I | split; [first [assumption | exact eq_refl] | exact eq_refl]]|]; left; reflexivity] | idtac ].
      all: eexists; eexists; (split; [apply out_at; cbn; [assumption | split; reflexivity]|]; split; [apply inc_at; cbn; [assumption | split; reflexivity]|]); right; exists (fin_out N DSrc); (split; [apply fwd_in; eexists; split; [|split; reflexivity]; assumption|]); apply in_dsrc_out; eexists; split; [eassumption|]; auto.
  Qed.
  Ltac cl X := repeat match type of X with _ \/ _ => destruct X as [X|X] | _ /\ _ => let Y := fresh X in destruct X as [X Y] | False => destruct X end.

  Lemma nerr_at s o a : live s -> (nth_error (nerr n s) o = Some (Some a) <->
    match s with
    | FSrc | Split _ | Parse _ => o = 0 /\ a = CBack s | Dechain i => o = 0 /\ a = CNewErr i
    | Batcher i => o = 0 /\ a = CErr (CertCsv i) | CertCsv i => o = 0 /\ a = CErr (CertIns i) | CertIns i => o = 0 /\ a = CErr (CertRem i)
    | Extractor i => o < N /\ a = CErr (DomBatcher o)
    | DomBatcher i => o = 0 /\ a = CErr (DomCsv i) | DomCsv i => o = 0 /\ a = CErr (DomIns i) | DomIns i => o = 0 /\ a = CErr (DomRem i)
    | CertRem _ | DomRem _ => o = 0 /\ a = CDrainErr s
    | _ => False
    end).
  Proof.
    intros Hv. rewrite (w_nerr _ _ _ _ _ Hw s (live_valid s Hv)). destruct s; cbn [fin_nerr]; try (destruct Hv; fail); rewrite ?nth_one, ?nth_map_some; intuition congruence.
  Qed.
  Lemma err_is s : valid s -> err n s = Some (CErr s). Proof. exact (w_err _ _ _ _ _ Hw s). Qed.
  Lemma in_each f k t : In t (each f k) <-> exists i, i < k /\ t = f i. Proof. apply in_map_seq. Qed.

  Theorem error_links s o t : live s -> live t -> (hears n s o t <-> exists i, flow S W C N s o t i).
  Proof.
    intros Hs Ht. unfold hears. split.
    - intros (a & Ha & H). rewrite (err_is t (live_valid t Ht)) in Ha. injection Ha as <-. destruct H as [H|[(k & ps & H1 & H2 & H3 & ->)|(to & b & H1 & H2 & H3)]].
      + apply (nerr_at s o _ Hs) in H. destruct s; cbn in Hs; try contradiction; destruct H as [Ho H]; try discriminate H; injection H as ->; cbn in Ht; cbn [flow]; eauto 8.
      + apply gos_in in H1. apply gos_in in H2. cbn [gor_in] in H1, H2.
        destruct H1 as [[-> H1]|[[-> H1]|[[-> H1]|[-> ->]]]]; [| | |destruct Ht]; apply in_each in H1 as (x & Hx & ->);
          destruct H2 as [[E ->]|[[E ->]|[[E ->]|[E ->]]]]; try discriminate E; try (apply in_each in H3 as (y & Hy & ->)); try (destruct H3 as [<-|[]]); cbn [flow]; exists 0; auto.
      + apply gos_in in H1. cbn [gor_in] in H1. destruct H1 as [H1 ->]. apply in_dsrc_err in H1 as (x & Hx & H1). unfold errs in H2. apply in_map_seq in H2 as (y & Hy & ->).
        apply (nerr_at s o _ Hs) in H3. destruct s; cbn in Hs; try contradiction; destruct H3 as [Ho H3]; try discriminate H3. injection H3 as <-. subst o.
        destruct H1 as [H1|H1]; injection H1 as ->; cbn [flow]; eauto 8.
    - intros (i & H). exists (CErr t). split; [exact (err_is t (live_valid t Ht))|].
      assert (Hcri : forall k ps, In (GCol k t) (gos n) -> In (GDist k ps) (gos n) -> In s ps -> o = 0 -> nth_error (nerr n s) o = Some (Some (CErr t)) \/
        (exists k ps, In (GCol k t) (gos n) /\ In (GDist k ps) (gos n) /\ In s ps /\ o = 0) \/
        (exists to b, In (GErr (Some (CErr t)) to) (gos n) /\ In b to /\ nth_error (nerr n s) o = Some (Some b))) by (intros k ps H1 H2 H3 H4; right; left; exists k, ps; auto).
      destruct s; cbn in Hs; try contradiction; destruct t; cbn in Ht; try contradiction; cbn [flow] in H; try contradiction; crush;
        try (left; apply nerr_at; [cbn; assumption | split; [first [assumption | exact eq_refl] | exact eq_refl]]; fail).
      + apply (Hcri 0 [FSrc]); [apply gos_in; cbn [gor_in] | apply gos_in; cbn [gor_in]; auto | left; reflexivity | reflexivity]. left. rewrite in_each. eauto.
      + apply (Hcri 1 (each Split S)); [apply gos_in; cbn [gor_in] | apply gos_in; cbn [gor_in]; auto | rewrite in_each; eauto | reflexivity]. right. left. rewrite in_each. eauto.
      + apply (Hcri 2 (each Parse W)); [apply gos_in; cbn [gor_in] | apply gos_in; cbn [gor_in]; auto | rewrite in_each; eauto | reflexivity]. do 2 right. left. rewrite in_each. eauto.
      + right. right. exists (errs C), (CNewErr i0). split; [apply gos_in; cbn [gor_in]; split; [apply in_dsrc_err; eauto | reflexivity]|]. split; [apply in_map_seq; eauto|]. apply nerr_at; [cbn; assumption | auto].
      + right. right. exists (errs C), (CNewErr i0). split; [apply gos_in; cbn [gor_in]; split; [apply in_dsrc_err; eauto | reflexivity]|]. split; [apply in_map_seq; eauto|]. apply nerr_at; [cbn; assumption | auto].
  Qed.

  (** ** Nobody stops early *)
  Lemma in_nth_err {A} (l : list A) x : In x l <-> exists i, nth_error l i = Some x.
  Proof. split; [apply In_nth_error | intros (i & H); exact (nth_error_In _ _ H)]. Qed.
  Lemma some_member (l : list (option chan)) : l <> [] -> ~ In None l -> exists c, In (Some c) l.
  Proof. destruct l as [|[c|] l]; [congruence | intros _ _; exists c; left; reflexivity | intros _ H; destruct H; left; reflexivity]. Qed.
  Theorem nothing_ends_early : 0 < S -> 0 < W -> 0 < C -> 0 < N -> (forall s, stopped n live False s -> False) /\ (forall c, closed n live False c -> False).
  Proof.
    intros H1 H2 H3 H4. apply ends_ind; try (intros; contradiction).
    - intros s _ _ Hn Hs _ IH. destruct (some_member _ Hn Hs) as (c & Hc). exact (IH c Hc).
    - intros s _ Hn Hs _ IH. destruct (some_member _ Hn Hs) as (c & Hc). exact (IH c Hc).
    - intros s k m l c Hi _ _ _ _ _ _ IH. exact (IH s Hi).
    - intros k ts Hg Hne _ IH. apply gos_in in Hg. cbn [gor_in] in Hg.
      assert (exists t, In t ts) as (t & Ht).
      { destruct Hg as [[_ ->]|[[_ ->]|[[_ ->]|[_ ->]]]]; [exists (Split 0) | exists (Parse 0) | exists (Dechain 0) | exists FSink]; try (apply in_each; eauto; fail). left. reflexivity. }
      destruct (err n t) as [c|] eqn:E; [exact (IH t c Ht E) | exact (Hne t Ht E)].
    - intros from to c Hg Hn _ IH _. apply gos_in in Hg. cbn [gor_in] in Hg. destruct Hg as [-> _]. apply (IH (CErr (Batcher 0))). apply in_dsrc_err. eauto.
    - intros from to c Hg _ IH _. apply gos_in in Hg. cbn [gor_in] in Hg. destruct Hg as [-> _]. apply (IH (CNewData 0)). apply in_map_seq. eauto.
  Qed.

  (** ** The goroutines that were left behind *)
  Lemma stopped_live E s : stopped n live E s -> live s. Proof. destruct 1; assumption. Qed.
  Lemma out_member s c : live s -> In (Some c) (out n s) -> c <> CErr FSink /\ c <> CAgg 3.
  Proof.
    intros Hs H. apply in_nth_err in H as (o & H). apply (out_at s o c Hs) in H. destruct s; cbn in Hs; try contradiction; destruct H as [_ ->]; split; discriminate.
  Qed.
  Lemma never_closed E c : closed n live E c -> c <> CErr FSink /\ c <> CAgg 3.
  Proof.
    revert c. apply (closed_ind2 n live E live (fun c => c <> CErr FSink /\ c <> CAgg 3)); try (intros; assumption).
    - intros s c _ Hs _ Hc. exact (out_member s c Hs Hc).
    - intros s k m l c Hi _ Hc _ _ _ _ IH. exact (out_member s c (IH s Hi) Hc).
    - intros s c _ Hs _ _ _ Hc. rewrite (err_is s (live_valid s Hs)) in Hc. injection Hc as <-. split; [|discriminate]. intros E'. injection E' as ->. exact Hs.
    - intros s c _ _ _ _. split; discriminate.
    - intros a b Hg _ _. apply gos_in in Hg. destruct Hg as (s & _ & _ & _ & ->). split; discriminate.
    - intros k ts Hg _ _ IH. split; [discriminate|]. intros E'. injection E' as ->. apply gos_in in Hg. cbn [gor_in] in Hg.
      destruct Hg as [[E' _]|[[E' _]|[[E' _]|[_ ->]]]]; try discriminate E'. destruct (IH FSink (CErr FSink)) as [H _]; [left; reflexivity | apply err_is; exact I | congruence].
    - intros k ps s c Hg _ _ Hs Hc. apply gos_in in Hg. cbn [gor_in] in Hg.
      assert (live s) by (destruct Hg as [[_ ->]|[[_ ->]|[[_ ->]|[_ ->]]]]; try (apply in_each in Hs as (i & Hi & ->)); try (destruct Hs as [<-|[]]); cbn; auto).
      apply (nerr_at s 0 c) in Hc; [|assumption]. destruct Hg as [[_ ->]|[[_ ->]|[[_ ->]|[_ ->]]]]; try (apply in_each in Hs as (i & Hi & ->)); try (destruct Hs as [<-|[]]); destruct Hc as [_ ->]; split; discriminate.
    - intros from to c Hg _ _ _ Hc. apply gos_in in Hg. destruct Hg as [_ ->]. apply in_map_seq in Hc as (i & _ & ->). split; discriminate.
    - intros from to c Hg _ _ Hc. apply gos_in in Hg. destruct Hg as [_ ->]. apply in_dsrc_out in Hc as (i & _ & [->| ->]); split; discriminate.
  Qed.

  (** ** Everything ends *)
  Lemma inc_in s c : valid s -> In (Some c) (inc n s) -> In (Some c) (fin_inc N s). Proof. intros H. rewrite (w_inc _ _ _ _ _ Hw s H). auto. Qed.
  Lemma no_none_map {A} (f : A -> chan) l : ~ In None (map (fun x => Some (f x)) l).
  Proof. intros H. apply in_map_iff in H as (x & E & _). discriminate E. Qed.
  Lemma inc_somes s : valid s -> ~ In None (inc n s).
  Proof. intros H. rewrite (w_inc _ _ _ _ _ Hw s H). destruct s; cbn [fin_inc]; try apply no_none_map; intros [E|[]]; discriminate E. Qed.
  Lemma nerr_somes s : live s -> ~ In None (nerr n s).
  Proof. intros H. rewrite (w_nerr _ _ _ _ _ Hw s (live_valid s H)). destruct s; cbn in H; try contradiction; cbn [fin_nerr]; try apply no_none_map; intros [E|[]]; discriminate E. Qed.
  Section All.
    Variable E : Prop.
    Notation stopped := (stopped n live E).
    Notation closed := (closed n live E).
    Lemma input_ends s : live s -> is_source s = false -> 0 < N -> (forall i c, nth_error (inc n s) i = Some (Some c) -> closed c) -> stopped s.
    Proof.
      intros Hs Hsrc HN H. apply st_input; [exact Hs | exact Hsrc | | exact (inc_somes s (live_valid s Hs)) |].
      - rewrite (w_inc _ _ _ _ _ Hw s (live_valid s Hs)). destruct s; cbn [fin_inc]; try discriminate. destruct N; [lia | discriminate].
      - intros c Hc. apply in_nth_err in Hc as (i & Hc). exact (H i c Hc).
    Qed.
    Lemma errors_end s : stopped s -> (forall o c, nth_error (nerr n s) o = Some (Some c) -> closed c) -> closed (CErr s).
    Proof.
      intros Hs H. pose proof (stopped_live E s Hs) as Hl. apply (cl_err n live E s); [exact Hs | exact (nerr_somes s Hl) | | exact (err_is s (live_valid s Hl))].
      intros c Hc. apply in_nth_err in Hc as (i & Hc). exact (H i c Hc).
    Qed.
    Lemma own_close s o c : stopped s -> fin_close S W s = CloseOwn -> nth_error (out n s) o = Some (Some c) -> closed c.
    Proof.
      intros Hs Hc Ho. apply (cl_own n live E s); [exact Hs | rewrite (w_close _ _ _ _ _ Hw s (live_valid s (stopped_live E s Hs))); exact Hc | exact (nth_error_In _ _ Ho)].
    Qed.
    Lemma group_close (f : nat -> sid) k m : (forall i j, f i = f j -> i = j) -> 0 < m -> (forall i, i < m -> stopped (f i)) ->
      (forall i, i < m -> fin_close S W (f i) = CloseShared k m) -> nth_error (out n (f 0)) 0 = Some (Some (CShared k)) -> closed (CShared k).
    Proof.
      intros Hinj Hm Hs Hc Ho.
      assert (Hcl : forall i, i < m -> close_of n (f i) = CloseShared k m) by (intros i Hi; rewrite (w_close _ _ _ _ _ Hw (f i) (live_valid _ (stopped_live E _ (Hs i Hi)))); exact (Hc i Hi)).
      apply (cl_shared n live E (f 0) k m (each f m)).
      - apply in_each. eauto.
      - exact (Hcl 0 Hm).
      - exact (nth_error_In _ _ Ho).
      - unfold each. apply FinFun.Injective_map_NoDup; [intros i j; apply Hinj | apply seq_NoDup].
      - unfold each. rewrite map_length. apply seq_length.
      - intros p Hp. apply in_each in Hp as (i & Hi & ->). exact (Hcl i Hi).
      - intros p Hp. apply in_each in Hp as (i & Hi & ->). exact (Hs i Hi).
    Qed.
    (** errors go back over a criss-cross *)
    Lemma agg_close k ts : In (GAggClose k ts) (gos n) -> (forall t, In t ts -> valid t) -> (forall t, In t ts -> closed (CErr t)) -> closed (CAgg k).
    Proof.
      intros Hg Hv H. apply (cl_agg n live E k ts Hg).
      - intros t Ht. rewrite (err_is t (Hv t Ht)). discriminate.
      - intros t c Ht. rewrite (err_is t (Hv t Ht)). intros X. injection X as <-. exact (H t Ht).
    Qed.
    Lemma back_end k ps s : In (GDist k ps) (gos n) -> closed (CAgg k) -> In s ps -> live s -> match s with FSrc | Split _ | Parse _ => True | _ => False end -> stopped s -> closed (CErr s).
    Proof.
      intros Hg Ha Hs Hl Hk Hst. apply errors_end; [exact Hst|]. intros o c Hc. apply (nerr_at s o c Hl) in Hc. apply (cl_back n live E k ps s c Hg Ha Hs). apply nerr_at; [exact Hl|]. destruct s; try contradiction; destruct Hc as [_ ->]; auto.
    Qed.
    Hypothesis HN : 0 < N.
    Hypothesis Hdata : forall i, i < C -> closed (CNewData i).
    Lemma db_inputs c : In (Some c) (fin_out N DSrc) -> closed c.
    Proof.
      intros H. apply (cl_data n live E (chans C) (fin_out N DSrc)); [apply gos_in; cbn [gor_in]; auto | | exact H]. intros b Hb. apply in_map_seq in Hb as (i & Hi & ->). exact (Hdata i Hi).
    Qed.
    Lemma line s t : live s -> live t -> (forall i b, nth_error (inc n t) i = Some (Some b) <-> i = 0 /\ b = CIn t 0) -> nth_error (out n s) 0 = Some (Some (CIn t 0)) ->
      fin_close S W s = CloseOwn -> is_source t = false -> stopped s -> stopped t.
    Proof.
      intros Hs Ht Hi Ho Hc Hsrc Hst. apply input_ends; [exact Ht | exact Hsrc | exact HN|]. intros i c H. apply Hi in H as [-> ->]. exact (own_close s 0 _ Hst Hc Ho).
    Qed.
    Ltac go_line s := apply (line s); [assumption | assumption | intros i0 b0; apply inc_at; assumption | apply out_at; [assumption | auto] | reflexivity | reflexivity |].
    Lemma batcher_ends b : b < N -> stopped (Batcher b) /\ stopped (Extractor b).
    Proof.
      intros Hb. split; (apply input_ends; [exact Hb | reflexivity | exact HN|]); intros i c H; apply inc_at in H as [-> ->]; try exact Hb; apply db_inputs; apply in_dsrc_out; eauto.
    Qed.
    Lemma cert_line b : b < N -> stopped (CertCsv b) /\ stopped (CertIns b) /\ stopped (CertRem b).
    Proof.
      intros Hb. assert (H1 : stopped (CertCsv b)) by (go_line (Batcher b); apply batcher_ends; exact Hb).
      assert (H2 : stopped (CertIns b)) by (go_line (CertCsv b); exact H1). assert (H3 : stopped (CertRem b)) by (go_line (CertIns b); exact H2). auto.
    Qed.
    Lemma dom_batcher b : b < N -> stopped (DomBatcher b).
    Proof.
      intros Hb. apply input_ends; [exact Hb | reflexivity | exact HN|]. intros i c H. apply inc_at in H as [Hi ->]; [|exact Hb].
      apply (own_close (Extractor i) b _ (proj2 (batcher_ends i Hi)) eq_refl). apply out_at; [exact Hi | auto].
    Qed.
    Lemma dom_line b : b < N -> stopped (DomCsv b) /\ stopped (DomIns b) /\ stopped (DomRem b).
    Proof.
      intros Hb. assert (H1 : stopped (DomCsv b)) by (go_line (DomBatcher b); exact (dom_batcher b Hb)).
      assert (H2 : stopped (DomIns b)) by (go_line (DomCsv b); exact H1). assert (H3 : stopped (DomRem b)) by (go_line (DomIns b); exact H2). auto.
    Qed.
    Lemma sink_err s : live s -> is_sink s = true -> stopped s -> closed (CErr s).
    Proof.
      intros Hl Hk Hs. apply errors_end; [exact Hs|]. intros o c Hc. apply (nerr_at s o c Hl) in Hc. destruct s; cbn in Hl; try discriminate Hk; try contradiction; destruct Hc as [_ ->].
      - apply (cl_drain n live E (CDrain (CertRem i))); [apply gos_in; exists (CertRem i); auto|]. apply (own_close (CertRem i) 0 _ Hs eq_refl). apply out_at; [exact Hl | auto].
      - apply (cl_drain n live E (CDrain (DomRem i))); [apply gos_in; exists (DomRem i); auto|]. apply (own_close (DomRem i) 0 _ Hs eq_refl). apply out_at; [exact Hl | auto].
    Qed.
    Ltac go_err t := apply errors_end; [assumption || (apply batcher_ends; assumption) || (apply dom_batcher; assumption)|]; intros o c Hc; apply nerr_at in Hc; [|assumption]; destruct Hc as [_ ->].
    Lemma db_errors b : b < N -> forall s, In s [Batcher b; Extractor b; CertCsv b; CertIns b; CertRem b; DomBatcher b; DomCsv b; DomIns b; DomRem b] -> closed (CErr s).
    Proof.
      assert (HD : forall b, b < N -> closed (CErr (DomRem b)) /\ closed (CErr (DomIns b)) /\ closed (CErr (DomCsv b)) /\ closed (CErr (DomBatcher b))).
      { intros d Hd. destruct (dom_line d Hd) as (D1 & D2 & D3). assert (closed (CErr (DomRem d))) by (apply sink_err; [exact Hd | reflexivity | exact D3]).
        assert (closed (CErr (DomIns d))) by (go_err 0; assumption). assert (closed (CErr (DomCsv d))) by (go_err 0; assumption).
        assert (closed (CErr (DomBatcher d))) by (go_err 0; assumption). auto. }
      intros Hb. destruct (cert_line b Hb) as (C1 & C2 & C3). destruct (HD b Hb) as (E1 & E2 & E3 & E4).
      assert (closed (CErr (CertRem b))) by (apply sink_err; [exact Hb | reflexivity | exact C3]).
      assert (closed (CErr (CertIns b))) by (go_err 0; assumption). assert (closed (CErr (CertCsv b))) by (go_err 0; assumption). assert (closed (CErr (Batcher b))) by (go_err 0; assumption).
      assert (closed (CErr (Extractor b))).
      { apply errors_end; [apply batcher_ends; exact Hb|]. intros o c Hc. apply nerr_at in Hc; [|exact Hb]. destruct Hc as [Ho ->]. apply (HD o Ho). }
      intros s Hs. cbn in Hs. repeat (destruct Hs as [<-|Hs]; [assumption|]). destruct Hs.
    Qed.
    Lemma join_errors i : i < C -> closed (CNewErr i).
    Proof.
      intros Hi. apply (cl_newerr n live E (fin_nerr N DSrc) (errs C)); [apply gos_in; cbn [gor_in]; auto | | | apply in_map_seq; eauto].
      - intros H. apply in_dsrc_err in H as (b & _ & [X|X]); discriminate X.
      - intros c Hc. apply in_dsrc_err in Hc as (b & Hb & [X|X]); injection X as ->; apply (db_errors b Hb); cbn; auto.
    Qed.
  End All.

  Theorem everything_ends : 0 < S -> 0 < W -> 0 < C -> 0 < N ->
    (forall s, live s -> stopped n live True s /\ closed n live True (CErr s)) /\ closed n live True (CTop FSrc) /\ (forall i, i < C -> closed n live True (CNewData i)).
  Proof.
    intros H1 H2 H3 H4.
    assert (A : stopped n live True FSrc) by (apply st_source; [exact I | reflexivity | exact I]).
    assert (A0 : closed n live True (CShared 0)).
    { apply (cl_shared n live True FSrc 0 1 [FSrc]); [left; reflexivity | exact (w_close _ _ _ _ _ Hw FSrc I) | | repeat constructor; intros [] | reflexivity | |].
      - apply (nth_error_In _ 0). apply out_at; [exact I | auto].
      - intros p [<-|[]]. exact (w_close _ _ _ _ _ Hw FSrc I).
      - intros p [<-|[]]. exact A. }
    assert (B : forall i, i < S -> stopped n live True (Split i)).
    { intros i Hi. apply input_ends; [exact Hi | reflexivity | exact H4|]. intros o c Hc. apply inc_at in Hc as [_ ->]; [exact A0 | exact Hi]. }
    assert (B0 : closed n live True (CShared 1)).
    { apply (group_close True Split 1 S); [intros ? ? E; injection E; auto | exact H1 | exact B | reflexivity | apply out_at; [exact H1 | auto]]. }
    assert (D : forall i, i < W -> stopped n live True (Parse i)).
    { intros i Hi. apply input_ends; [exact Hi | reflexivity | exact H4|]. intros o c Hc. apply inc_at in Hc as [_ ->]; [exact B0 | exact Hi]. }
    assert (D0 : closed n live True (CShared 2)).
    { apply (group_close True Parse 2 W); [intros ? ? E; injection E; auto | exact H2 | exact D | reflexivity | apply out_at; [exact H2 | auto]]. }
    assert (F : forall i, i < C -> stopped n live True (Dechain i)).
    { intros i Hi. apply input_ends; [exact Hi | reflexivity | exact H4|]. intros o c Hc. apply inc_at in Hc as [_ ->]; [exact D0 | exact Hi]. }
    assert (F0 : forall i, i < C -> closed n live True (CNewData i)).
    { intros i Hi. apply (own_close True (Dechain i) 0 _ (F i Hi) eq_refl). apply out_at; [exact Hi | auto]. }
    assert (G : forall i, i < C -> closed n live True (CErr (Dechain i))).
    { intros i Hi. apply errors_end; [exact (F i Hi)|]. intros o c Hc. apply nerr_at in Hc as [_ ->]; [|exact Hi]. exact (join_errors True H4 F0 i Hi). }
    assert (G0 : closed n live True (CAgg 2)).
    { apply (agg_close True 2 (each Dechain C)); [apply gos_in; cbn [gor_in]; auto | |]; intros t Ht; apply in_each in Ht as (i & Hi & ->); [exact Hi | exact (G i Hi)]. }
    assert (K : forall i, i < W -> closed n live True (CErr (Parse i))).
    { intros i Hi. apply (back_end True 2 (each Parse W)); [apply gos_in; cbn [gor_in]; auto | exact G0 | apply in_each; eauto | exact Hi | exact I | exact (D i Hi)]. }
    assert (K0 : closed n live True (CAgg 1)).
    { apply (agg_close True 1 (each Parse W)); [apply gos_in; cbn [gor_in]; auto | |]; intros t Ht; apply in_each in Ht as (i & Hi & ->); [exact Hi | exact (K i Hi)]. }
    assert (L : forall i, i < S -> closed n live True (CErr (Split i))).
    { intros i Hi. apply (back_end True 1 (each Split S)); [apply gos_in; cbn [gor_in]; auto | exact K0 | apply in_each; eauto | exact Hi | exact I | exact (B i Hi)]. }
    assert (L0 : closed n live True (CAgg 0)).
    { apply (agg_close True 0 (each Split S)); [apply gos_in; cbn [gor_in]; auto | |]; intros t Ht; apply in_each in Ht as (i & Hi & ->); [exact Hi | exact (L i Hi)]. }
    assert (M : closed n live True (CErr FSrc)).
    { apply (back_end True 0 [FSrc]); [apply gos_in; cbn [gor_in]; auto | exact L0 | left; reflexivity | exact I | exact I | exact A]. }
    split; [|split; [|exact F0]].
    - intros s Hs. destruct s as [|i|i|i| | |i|i|i|i|i|i|i|i|i]; cbn in Hs; try contradiction; auto;
        (split; [|apply (db_errors True H4 F0 i Hs); cbn; tauto]);
        first [apply (batcher_ends True H4 F0 i Hs) | apply (cert_line True H4 F0 i Hs) | apply (dom_batcher True H4 F0 i Hs) | apply (dom_line True H4 F0 i Hs)].
    - apply (cl_top n live True FSrc (CErr FSrc)); [apply gos_in; reflexivity | exact (err_is FSrc I) | exact M].
  Qed.

  (** ** No workers *)
  Lemma told_back E k ps s : In (GDist k ps) (gos n) -> closed n live E (CAgg k) -> In s ps -> live s -> match s with FSrc | Split _ | Parse _ => True | _ => False end -> stopped n live E s /\ closed n live E (CErr s).
  Proof.
    intros Hg Ha Hs Hl Hk.
    assert (Hst : stopped n live E s).
    { apply st_told; [exact Hl | | exact (nerr_somes s Hl) |].
      - rewrite (w_nerr _ _ _ _ _ Hw s (live_valid s Hl)). destruct s; try contradiction; discriminate.
      - intros c Hc. apply in_nth_err in Hc as (o & Hc). apply (cl_back n live E k ps s c Hg Ha Hs). apply (nerr_at s o c Hl) in Hc. apply nerr_at; [exact Hl|]. destruct s; try contradiction; destruct Hc as [_ ->]; auto. }
    split; [exact Hst|]. exact (back_end E k ps s Hg Ha Hs Hl Hk Hst).
  Qed.
  Theorem no_workers E : S = 0 \/ W = 0 \/ C = 0 -> stopped n live E FSrc /\ closed n live E (CTop FSrc).
  Proof.
    intros H0.
    assert (L0 : closed n live E (CAgg 0)).
    { apply (agg_close E 0 (each Split S)); [apply gos_in; cbn [gor_in]; auto | intros t Ht; apply in_each in Ht as (i & Hi & ->); exact Hi|]. intros t Ht. apply in_each in Ht as (i & Hi & ->).
      apply (told_back E 1 (each Split S)); [apply gos_in; cbn [gor_in]; auto | | apply in_each; eauto | exact Hi | exact I].
      apply (agg_close E 1 (each Parse W)); [apply gos_in; cbn [gor_in]; auto | intros t Ht; apply in_each in Ht as (j & Hj & ->); exact Hj|]. intros t Ht. apply in_each in Ht as (j & Hj & ->).
      apply (told_back E 2 (each Parse W)); [apply gos_in; cbn [gor_in]; auto | | apply in_each; eauto | exact Hj | exact I].
      apply (agg_close E 2 (each Dechain C)); [apply gos_in; cbn [gor_in]; auto | intros t Ht; apply in_each in Ht as (l & Hl & ->); exact Hl|]. intros t Ht. apply in_each in Ht as (l & Hl & ->). lia. }
    destruct (told_back E 0 [FSrc] FSrc) as [A B]; [apply gos_in; cbn [gor_in]; auto | exact L0 | left; reflexivity | exact I | exact I|].
    split; [exact A|]. apply (cl_top n live E FSrc (CErr FSrc)); [apply gos_in; reflexivity | exact (err_is FSrc I) | exact B].
  Qed.

  (** ** Goroutines *)
  Definition left_behind (g : gor) : Prop := g = GDist 3 (each Dechain C) \/ g = GCol 3 FSink \/ g = GAggClose 3 [FSink].
  Lemma left_in g : left_behind g -> In g (gos n).
  Proof. intros [->|[->| ->]]; apply gos_in; cbn [gor_in]; auto 8. Qed.
  Theorem left_never E g : left_behind g -> ~ returns n live E g.
  Proof.
    intros [->|[->| ->]]; cbn [returns].
    - intros H. apply never_closed in H. destruct H as [_ H]. congruence.
    - intros (c & H & Hc). rewrite (err_is FSink I) in H. injection H as <-. apply never_closed in Hc. destruct Hc as [Hc _]. congruence.
    - intros H. destruct (H FSink (or_introl eq_refl)) as (c & Hf & Hc). rewrite (err_is FSink I) in Hf. injection Hf as <-. apply never_closed in Hc. destruct Hc as [Hc _]. congruence.
  Qed.
  Theorem others_return g : 0 < S -> 0 < W -> 0 < C -> 0 < N -> In g (gos n) -> ~ left_behind g -> returns n live True g.
  Proof.
    intros H1 H2 H3 H4 Hg Hl. destruct (everything_ends H1 H2 H3 H4) as (A & B & D).
    assert (Ht : forall t, live t -> exists c, err n t = Some c /\ closed n live True c).
    { intros t Ht. exists (CErr t). split; [exact (err_is t (live_valid t Ht)) | apply A; exact Ht]. }
    assert (Hagg : forall k ts, In (GAggClose k ts) (gos n) -> (forall t, In t ts -> live t) -> closed n live True (CAgg k)).
    { intros k ts Hk Hts. apply (agg_close True k ts Hk); [intros t X; exact (live_valid t (Hts t X)) | intros t X; apply A; exact (Hts t X)]. }
    assert (Heach : forall f k t, In t (each f k) -> (forall i, i < k -> live (f i)) -> live t) by (intros f k t X Y; apply in_each in X as (i & Hi & ->); exact (Y i Hi)).
    pose proof Hg as Hi. apply gos_in in Hi. destruct g as [s|a b|k ps|k t|k ts|from to|from to|from to|from to]; cbn [gor_in] in Hi; cbn [returns].
    - subst s. exact (Ht FSrc I).
    - destruct Hi as (s & Hs & Hk & -> & ->). apply (own_close True s 0); [apply A; exact Hs | destruct s; try discriminate Hk; reflexivity | apply out_at; [exact Hs|]]. destruct s; try discriminate Hk; cbn in Hs; try contradiction; auto.
    - destruct Hi as [[-> ->]|[[-> ->]|[[-> ->]|[-> ->]]]].
      + apply (Hagg 0 (each Split S)); [apply gos_in; cbn [gor_in]; auto | intros t X; exact (Heach _ _ _ X (fun i Hi => Hi))].
      + apply (Hagg 1 (each Parse W)); [apply gos_in; cbn [gor_in]; auto | intros t X; exact (Heach _ _ _ X (fun i Hi => Hi))].
      + apply (Hagg 2 (each Dechain C)); [apply gos_in; cbn [gor_in]; auto | intros t X; exact (Heach _ _ _ X (fun i Hi => Hi))].
      + destruct Hl. left. reflexivity.
    - apply Ht. destruct Hi as [[-> X]|[[-> X]|[[-> X]|[-> ->]]]]; try exact (Heach _ _ _ X (fun i Hi => Hi)). destruct Hl. right. left. reflexivity.
    - intros t X. apply Ht. destruct Hi as [[-> ->]|[[-> ->]|[[-> ->]|[-> ->]]]]; try exact (Heach _ _ _ X (fun i Hi => Hi)). destruct Hl. right. right. reflexivity.
    - destruct Hi as [Hi _]. apply in_dsrc_err in Hi as (b & Hb & [->| ->]); eexists; (split; [reflexivity | apply A; exact Hb]).
    - destruct Hi as [-> _]. intros f Hf. apply in_dsrc_err in Hf as (b & Hb & [->| ->]); eexists; (split; [reflexivity | apply A; exact Hb]).
    - destruct Hi as [Hi _]. apply in_map_seq in Hi as (i & Hi & ->). exact (D i Hi).
    - destruct Hi as [-> _]. intros c Hc. apply in_map_seq in Hc as (i & Hi & ->). exact (D i Hi).
  Qed.

  (** ** No channel is closed twice *)
  Definition closer_of (c : chan) : option agent :=
    match c with
    | CErr s => Some (AStage s)
    | CTop s => Some (AGo (GPump s))
    | CDrain s => Some (AStage s)
    | CDrainErr s => Some (AGo (GDrain (CDrain s) (CDrainErr s)))
    | CShared k => Some (AGroup k)
    | CAgg k => Some (AGo (GAggClose k (match k with 0 => each Split S | 1 => each Parse W | _ => each Dechain C end)))
    | CBack FSrc => Some (AGo (GDist 0 [FSrc]))
    | CBack (Split _) => Some (AGo (GDist 1 (each Split S)))
    | CBack (Parse _) => Some (AGo (GDist 2 (each Parse W)))
    | CBack _ => None
    | CNewErr _ => Some (AGo (GErrClose (fin_nerr N DSrc) (errs C)))
    | CNewData i => Some (AStage (Dechain i))
    | CIn FSrc _ => Some (AGo (GPump FSrc))
    | CIn (Batcher _) _ | CIn (Extractor _) _ => Some (AGo (GFwdClose (chans C) (fin_out N DSrc)))
    | CIn (CertCsv i) _ => Some (AStage (Batcher i))
    | CIn (CertIns i) _ => Some (AStage (CertCsv i))
    | CIn (CertRem i) _ => Some (AStage (CertIns i))
    | CIn (DomBatcher _) i => Some (AStage (Extractor i))
    | CIn (DomCsv i) _ => Some (AStage (DomBatcher i))
    | CIn (DomIns i) _ => Some (AStage (DomCsv i))
    | CIn (DomRem i) _ => Some (AStage (DomIns i))
    | CIn _ _ => None
    end.
  Lemma closes_one E a c : closes n live E a c -> closer_of c = Some a.
  Proof.
    destruct a as [s|k|g]; cbn [closes].
    - intros (Hs & [(Hc & Ho)|Hc]).
      + rewrite (w_close _ _ _ _ _ Hw s (live_valid s Hs)) in Hc. apply in_nth_err in Ho as (o & Ho). apply (out_at s o c Hs) in Ho. destruct s; cbn in Hs; try contradiction; try discriminate Hc; destruct Ho as [_ ->]; reflexivity.
      + rewrite (err_is s (live_valid s Hs)) in Hc. injection Hc as <-. reflexivity.
    - intros (s & m & Hs & Hc & Ho). rewrite (w_close _ _ _ _ _ Hw s (live_valid s Hs)) in Hc. apply in_nth_err in Ho as (o & Ho). apply (out_at s o c Hs) in Ho.
      destruct s; cbn in Hs; try contradiction; try discriminate Hc; injection Hc as <- _; destruct Ho as [_ ->]; reflexivity.
    - intros (Hg & Hr & Hc). pose proof Hg as Hi. apply gos_in in Hi. destruct g as [s|x b|k ps|k t|k ts|from to|from to|from to|from to]; cbn [gor_in] in Hi; try contradiction.
      + subst s. destruct Hc as [->|Hc]; [reflexivity|]. apply inc_at in Hc as [_ ->]; [reflexivity | exact I].
      + subst c. destruct Hi as (s & _ & _ & -> & ->). reflexivity.
      + destruct Hc as (s & Hs & Hc). destruct Hi as [[-> ->]|[[-> ->]|[[-> ->]|[-> ->]]]].
        * destruct Hs as [<-|[]]. apply nerr_at in Hc as [_ ->]; [reflexivity | exact I].
        * apply in_each in Hs as (i & Hi & ->). apply nerr_at in Hc as [_ ->]; [reflexivity | exact Hi].
        * apply in_each in Hs as (i & Hi & ->). apply nerr_at in Hc as [_ ->]; [reflexivity | exact Hi].
        * destruct (left_never E (GDist 3 (each Dechain C))); [left; reflexivity | exact Hr].
      + subst c. destruct Hi as [[-> ->]|[[-> ->]|[[-> ->]|[-> ->]]]]; try reflexivity. destruct (left_never E (GAggClose 3 [FSink])); [right; right; reflexivity | exact Hr].
      + destruct Hi as [-> ->]. apply in_map_seq in Hc as (i & _ & ->). reflexivity.
      + destruct Hi as [-> ->]. apply in_dsrc_out in Hc as (b & _ & [->| ->]); reflexivity.
  Qed.
  Theorem closed_once E a b c : closes n live E a c -> closes n live E b c -> a = b.
  Proof. intros H1 H2. apply closes_one in H1. apply closes_one in H2. rewrite H1 in H2. injection H2 as ->. reflexivity. Qed.
  Lemma map_nodup {A B} (f : A -> B) l : (forall x y, f x = f y -> x = y) -> NoDup l -> NoDup (map f l).
  Proof. intros H. apply FinFun.Injective_map_NoDup. exact H. Qed.
  Lemma nodup_two {A} (l m : list A) : NoDup l -> NoDup m -> (forall x, In x l -> ~ In x m) -> NoDup (l ++ m).
  Proof.
    intros Hl Hm H. induction Hl as [|x l Hx Hl IH]; [exact Hm|]. cbn. constructor.
    - rewrite in_app_iff. intros [X|X]; [exact (Hx X) | exact (H x (or_introl eq_refl) X)].
    - apply IH. intros y Hy. apply H. right. exact Hy.
  Qed.
  Theorem closed_lists g : In g (gos n) ->
    match g with GFwdClose _ to => NoDup to | GErrClose _ to => NoDup to | GDist _ ps => NoDup (map (fun s => nth_error (nerr n s) 0) ps) | _ => True end.
  Proof.
    intros H. apply gos_in in H. destruct g as [s|x b|k ps|k t|k ts|from to|from to|from to|from to]; cbn [gor_in] in H; try exact I.
    - assert (He : forall f m, (forall i j, i < m -> j < m -> nth_error (nerr n (f i)) 0 = nth_error (nerr n (f j)) 0 -> i = j) -> NoDup (map (fun s => nth_error (nerr n s) 0) (each f m))).
      { intros f m Hf. unfold each. rewrite map_map. assert (G : forall l, NoDup l -> (forall i, In i l -> i < m) -> NoDup (map (fun i => nth_error (nerr n (f i)) 0) l)).
        { induction 1 as [|i l Hi Hl IH]; intros Hb; [constructor|]. cbn. constructor.
          - intros X. apply in_map_iff in X as (j & Hj & Hjl). apply Hi. assert (i = j) as ->; [|exact Hjl]. apply Hf; [apply Hb; left; reflexivity | apply Hb; right; exact Hjl | auto].
          - apply IH. intros j Hj. apply Hb. right. exact Hj. }
        apply G; [apply seq_NoDup | intros i Hi; apply in_seq in Hi; lia]. }
      destruct H as [[_ ->]|[[_ ->]|[[_ ->]|[_ ->]]]].
      + repeat constructor. intros [].
      + apply He. intros i j Hi Hj. rewrite !(w_nerr _ _ _ _ _ Hw) by (cbn; assumption). cbn. congruence.
      + apply He. intros i j Hi Hj. rewrite !(w_nerr _ _ _ _ _ Hw) by (cbn; assumption). cbn. congruence.
      + apply He. intros i j Hi Hj. rewrite !(w_nerr _ _ _ _ _ Hw) by (cbn; assumption). cbn. congruence.
    - destruct H as [_ ->]. apply map_nodup; [congruence | apply seq_NoDup].
    - destruct H as [_ ->]. cbn [fin_out]. apply nodup_two; [apply map_nodup; [congruence | apply seq_NoDup] | apply map_nodup; [congruence | apply seq_NoDup]|].
      intros x X Y. apply in_map_iff in X as (i & <- & _). apply in_map_iff in Y as (j & Y & _). discriminate Y.
  Qed.
  Theorem own_outputs_differ s : live s -> NoDup (out n s).
  Proof.
    intros Hs. rewrite (w_out _ _ _ _ _ Hw s (live_valid s Hs)). destruct s; cbn [fin_out]; cbn in Hs; try contradiction; try (repeat constructor; intros []; fail).
    apply map_nodup; [intros x y X; congruence | apply seq_NoDup].
  Qed.
End Results.

(** The stages that are resumed are those of the list. *)
Lemma live_change n (P Q : sid -> Prop) (E : Prop) : (forall s, P s -> Q s) -> (forall s, stopped n P E s -> stopped n Q E s) /\ (forall c, closed n P E c -> closed n Q E c).
Proof.
  intros H. apply ends_ind.
  - intros s H1 H2 H3. exact (st_source n Q E s (H s H1) H2 H3).
  - intros s H1 H2 H3 H4 _ IH. exact (st_input n Q E s (H s H1) H2 H3 H4 IH).
  - intros s H1 H2 H3 _ IH. exact (st_told n Q E s (H s H1) H2 H3 IH).
  - intros s c _ IH H1 H2. exact (cl_own n Q E s c IH H1 H2).
  - intros s k m l c H1 H2 H3 H4 H5 H6 _ IH. exact (cl_shared n Q E s k m l c H1 H2 H3 H4 H5 H6 IH).
  - intros s c _ IH H1 _ IH2 H2. exact (cl_err n Q E s c IH H1 IH2 H2).
  - intros s c H1 H2 _ IH. exact (cl_top n Q E s c H1 H2 IH).
  - intros a b H1 _ IH. exact (cl_drain n Q E a b H1 IH).
  - intros k ts H1 H2 _ IH. exact (cl_agg n Q E k ts H1 H2 IH).
  - intros k ps s c H1 _ IH H2 H3. exact (cl_back n Q E k ps s c H1 IH H2 H3).
  - intros from to c H1 H2 _ IH H3. exact (cl_newerr n Q E from to c H1 H2 IH H3).
  - intros from to c H1 _ IH H2. exact (cl_data n Q E from to c H1 IH H2).
Qed.
Section Listed.
  Variable S W C N : nat.
  Notation In_joined := (fun s => In s (joined S W C N)).
  Lemma to_list n E : (forall s, stopped n (live S W C N) E s -> stopped n In_joined E s) /\ (forall c, closed n (live S W C N) E c -> closed n In_joined E c).
  Proof. apply live_change. intros s H. apply joined_in. exact H. Qed.
  Lemma from_list n E : (forall s, stopped n In_joined E s -> stopped n (live S W C N) E s) /\ (forall c, closed n In_joined E c -> closed n (live S W C N) E c).
  Proof. apply live_change. intros s H. apply joined_in. exact H. Qed.
  Lemma returns_iff n E g : returns n In_joined E g <-> returns n (live S W C N) E g.
  Proof.
    destruct (to_list n E) as [_ A]. destruct (from_list n E) as [_ B]. destruct g; cbn [returns]; split.
    all: try (intros (c & H1 & H2); exists c; auto; fail).
    all: try (intros H; auto; fail).
    all: try (intros H t Ht; destruct (H t Ht) as (c & H1 & H2); exists c; auto; fail).
  Qed.
  Lemma closes_to n E a c : closes n In_joined E a c -> closes n (live S W C N) E a c.
  Proof.
    destruct a as [s|k|g]; cbn [closes].
    - rewrite joined_in. auto.
    - intros (s & m & H1 & H2). apply joined_in in H1. exists s, m. auto.
    - intros (H1 & H2 & H3). apply returns_iff in H2. auto.
  Qed.
End Listed.

Section Extra.
  Variable S W C N : nat.
  Variable n : net.
  Lemma made_pos : processor_resume S W C N = Wired n -> 0 < N.
  Proof. intros E. destruct N as [|k] eqn:HN; [|lia]. rewrite resume_refused in E by reflexivity. discriminate E. Qed.
  Lemma made_wired : processor_resume S W C N = Wired n -> wired S W C N n.
  Proof. intros E. destruct (resume_wired S W C N (made_pos E)) as (m & F & Hw). rewrite E in F. injection F as <-. exact Hw. Qed.
  Lemma each_nodup f k : (forall i j, f i = f j -> i = j) -> NoDup (each f k).
  Proof. intros H. apply map_nodup; [exact H | apply seq_NoDup]. Qed.
  Lemma joined_nodup : NoDup (joined S W C N).
  Proof.
    rewrite joined_list. repeat (apply nodup_two; [first [apply each_nodup; intros i j E; injection E; auto | repeat constructor; intros []] | |]).
    all: try (apply each_nodup; intros i j E; injection E; auto; fail).
    all: intros x H; rewrite ?in_app_iff, ?in_each; try (apply in_each in H as (i & _ & ->)); try (destruct H as [<-|[]]); intros K;
      repeat match type of K with _ \/ _ => destruct K as [K|K] end; destruct K as (j & _ & K); discriminate K.
  Qed.
  Lemma not_none (l : list (option chan)) : ~ In None l -> forall c, In c l -> c <> None. Proof. intros H c Hc E. subst c. exact (H Hc). Qed.
  Lemma no_nil (Hw : wired S W C N n) s : live S W C N s ->
    err n s <> None /\ (forall c, In c (inc n s) -> c <> None) /\ (forall c, In c (out n s) -> c <> None) /\ (forall c, In c (nerr n s) -> c <> None) /\ length (out n s) = length (nerr n s).
  Proof.
    intros Hs. pose proof (live_valid S W C N s Hs) as Hv. split; [rewrite (w_err _ _ _ _ _ Hw s Hv); discriminate|]. split; [exact (not_none _ (inc_somes S W C N n Hw s Hv))|]. split; [|split].
    - apply not_none. rewrite (w_out _ _ _ _ _ Hw s Hv). destruct s; cbn in Hs; try contradiction; cbn [fin_out]; try apply no_none_map; intros [E|[]]; discriminate E.
    - exact (not_none _ (nerr_somes S W C N n Hw s Hs)).
    - rewrite (w_out _ _ _ _ _ Hw s Hv), (w_nerr _ _ _ _ _ Hw s Hv). destruct s; cbn in Hs; try contradiction; cbn [fin_out fin_nerr]; rewrite ?map_length; reflexivity.
  Qed.
End Extra.
