(** Consequences for the linear pipeline: chains of functions, links, errors of streaming functions. *)
From Verif Require Import Base BaseLemmas SysModel SysProofs PipeModel PipeSpec LexProofs PipeProofs PipeData PipeQuiet.

Lemma nth_error_Some_lt {A} (l : list A) i x : nth_error l i = Some x -> i < length l.
Proof. intros H. apply nth_error_Some. rewrite H. discriminate. Qed.
Lemma firstn_S_snoc {A} (l : list A) : forall i x, nth_error l i = Some x -> firstn (S i) l = firstn i l ++ [x].
Proof.
  induction l as [|y l IH]; intros [|i] x H; try discriminate H; cbn in H; [injection H as ->; reflexivity|].
  cbn [firstn app]. f_equal. exact (IH i x H).
Qed.

Section Runs.
  Context {D : Type}.
  Variable tick : D.
  Variable bs : nat -> @behaviour D.
  Notation step := (pipe_step tick bs).
  Lemma pdinv_run n l : pinv n (run step (pipe_start n) l) /\ dinv bs n (run step (pipe_start n) l).
  Proof.
    apply (run_inv step (fun p => pinv n p /\ dinv bs n p)).
    - intros p a p' [H1 H2] H. split; [exact (pinv_step tick bs n p a p' H1 H) | exact (dinv_step tick bs n p a p' H1 H2 H)].
    - split; [apply pinv_start | apply dinv_start].
  Qed.
  Lemma run_links n l k s s' : let p := run step (pipe_start n) l in
    nth_error (stages p) k = Some s -> nth_error (stages p) (S k) = Some s' -> rcvd s' = sent s.
  Proof. intros p. exact (d_link _ _ _ (proj2 (pdinv_run n l)) k s s'). Qed.
  Lemma run_prefix n l k s : let p := run step (pipe_start n) l in orderly (bs k) -> nth_error (stages p) k = Some s ->
    exists rest, images (bs k) (rcvd s) ++ (if ended s then last_outs (bs k) (rcvd s) else []) = sent s ++ rest.
  Proof. intros p Ho Hk. exact (data_prefix _ _ (d_data _ _ _ (proj2 (pdinv_run n l)) k s Hk Ho)). Qed.
End Runs.

Section Chain.
  Context {D : Type}.
  Variable tick : D.
  Variable items : list D.
  Variable fs : list (D -> D).
  Let bs := chain items fs.

  Lemma chain_source : source_items tick (bs 0) (length items).
  Proof.
    split.
    - intros m Hm. cbn. rewrite repeat_length. destruct (nth_error items (pred m)) eqn:E; [left; reflexivity|]. apply nth_error_None in E. lia.
    - cbn [bs chain slice_source proc]. rewrite repeat_length. cbn [pred]. destruct (nth_error items (length items)) eqn:E; [|reflexivity].
      apply nth_error_Some_lt in E. lia.
  Qed.
  Lemma chain_others k : 0 < k -> never_fails (bs k).
  Proof.
    intros Hk. destruct k as [|k]; [lia|]. unfold bs, chain. destruct (nth_error fs k); (split; [intros h; left; reflexivity | intros h e; discriminate]).
  Qed.
  Lemma chain_orderly k : orderly (bs k).
  Proof.
    right. intros h. destruct k as [|k]; unfold bs, chain.
    - cbn. destruct (nth_error items (pred (length h))); cbn; repeat split; try lia; intros o [].
    - destruct (nth_error fs k); cbn; [destruct (rev h)|]; cbn; repeat split; try lia; intros o [].
  Qed.
  Lemma source_images m : m <= length items -> images (bs 0) (repeat tick m) = firstn m items.
  Proof.
    induction m as [|m IH]; intros Hm; [reflexivity|]. change (repeat tick (S m)) with (tick :: repeat tick m). rewrite repeat_cons, images_snoc, IH by lia. unfold outs_of. cbn [bs chain slice_source proc stream].
    rewrite app_length, repeat_length. cbn [length]. replace (pred (m + 1)) with m by lia.
    destruct (nth_error items m) as [x|] eqn:E; [|apply nth_error_None in E; lia]. rewrite (firstn_S_snoc items m x E). reflexivity.
  Qed.
  Lemma expected_one : expected tick bs (length items) 1 = items.
  Proof.
    change (expected tick bs (length items) 1) with (images (bs 0) (tick :: repeat tick (length items))). rewrite repeat_cons, images_snoc, source_images, firstn_all by lia. unfold outs_of. cbn [bs chain slice_source proc stream].
    rewrite app_length, repeat_length. cbn [length]. replace (pred (length items + 1)) with (length items) by lia.
    destruct (nth_error items (length items)) eqn:E; [apply nth_error_Some_lt in E; lia|]. cbn. apply app_nil_r.
  Qed.
  Lemma map_images (f : D -> D) h : images (map_stage f) h = map f h.
  Proof.
    induction h as [|x h IH] using rev_ind; [reflexivity|]. rewrite images_snoc, IH, map_app. f_equal. unfold outs_of. cbn. rewrite rev_app_distr. reflexivity.
  Qed.
  Lemma expected_chain j : j <= length fs -> expected tick bs (length items) (S j) = map (fun x => fold_left (fun y g => g y) (firstn j fs) x) items.
  Proof.
    induction j as [|j IH]; intros Hj.
    - rewrite expected_one. cbn. symmetry. apply map_id.
    - rewrite expected_SS, IH by lia. destruct (nth_error fs j) as [g|] eqn:E; [|apply nth_error_None in E; lia].
      replace (bs (S j)) with (map_stage g) by (unfold bs, chain; rewrite E; reflexivity).
      rewrite map_images, map_map. cbn [last_outs map_stage nomore fst]. rewrite app_nil_r. apply map_ext. intros x.
      rewrite (firstn_S_snoc fs j g E), fold_left_app. reflexivity.
  Qed.
  Lemma chain_delivers_any l : let p := run (pipe_step tick (chain items fs)) (pipe_start (S (S (length fs)))) l in waited p <> None ->
    waited p = Some [] /\ forall s, nth_error (stages p) (S (length fs)) = Some s -> rcvd s = map (fun x => fold_left (fun y g => g y) fs x) items.
  Proof.
    intros p Hw. destruct (quiet_delivers tick bs (length items) chain_source chain_others (S (S (length fs))) l chain_orderly ltac:(lia) Hw) as [H1 H2].
    split; [exact H1|]. intros s Hs. destruct (H2 _ s Hs) as [H3 _]. rewrite H3, expected_chain by lia. rewrite firstn_all. reflexivity.
  Qed.
  Lemma chain_delivers f : fair f -> exists m, let p := run (pipe_step tick (chain items fs)) (pipe_start (S (S (length fs)))) (prefix f m) in
    waited p = Some [] /\
    exists s, nth_error (stages p) (S (length fs)) = Some s /\ pc s = Done /\ rcvd s = map (fun x => fold_left (fun y g => g y) fs x) items.
  Proof.
    intros Hf. destruct (pipe_terminates tick bs (length items) (source_ends tick bs _ chain_source) (S (S (length fs))) f ltac:(lia) Hf) as [m [Hw (_ & _ & HD)]].
    exists m. destruct (chain_delivers_any (prefix f m) Hw) as [H1 H2]. split; [exact H1|].
    destruct (pdinv_run tick bs (S (S (length fs))) (prefix f m)) as [HP _].
    destruct (nth_error (stages (run (pipe_step tick (chain items fs)) (pipe_start (S (S (length fs)))) (prefix f m))) (S (length fs))) as [s|] eqn:E.
    - exists s. split; [reflexivity|]. split; [exact (HD _ s E) | exact (H2 s eq_refl)].
    - exfalso. apply nth_error_None in E. pose proof (i_len _ _ HP) as Hl. unfold bs in Hl. lia.
  Qed.
End Chain.

Section Same.
  Context {D : Type}.
  Variable tick : D.
  Variable bs bs' : nat -> @behaviour D.
  Hypothesis same : forall k, same_but_stream_error (bs k) (bs' k).
  Notation stage := (@stage D).
  Notation pipe := (@pipe D).

  Definition quiet_more (l : list (list D * ret)) : list (list D * bool) := map (fun o => (fst o, is_stream (snd o))) l.
  Inductive pc_sim : @stage_pc D -> @stage_pc D -> Prop :=
  | Sim_eq pc : pc_sim pc pc
  | Sim_send o st m m' br se : quiet_more m' = quiet_more m -> pc_sim (Send o st m br se) (Send o st m' br se).
  Definition stage_sim (s s' : stage) : Prop :=
    pc_sim (pc s) (pc s') /\ found s' = found s /\ rcvd s' = rcvd s /\ sent s' = sent s /\ ended s' = ended s.
  Definition pipe_sim (p p' : pipe) : Prop :=
    Forall2 stage_sim (stages p) (stages p') /\ pump p' = pump p /\ drained p' = drained p /\ waited p' = waited p.

  Lemma Forall2_set l l' : Forall2 stage_sim l l' -> forall i x x', stage_sim x x' -> Forall2 stage_sim (set_nth i x l) (set_nth i x' l').
  Proof. induction 1; intros [|i] z z' Hz; cbn; constructor; auto. Qed.
  Lemma Forall2_nth l l' : Forall2 stage_sim l l' -> forall i, match nth_error l i, nth_error l' i with Some x, Some x' => stage_sim x x' | None, None => True | _, _ => False end.
  Proof. induction 1; intros [|i]; cbn; auto. apply IHForall2. Qed.

  Lemma sim_processed s s' h fin o m m' : stage_sim s s' -> quiet_more m' = quiet_more m -> stage_sim (processed s h fin o m) (processed s' h fin o m').
  Proof.
    intros (H1 & H2 & H3 & H4 & H5) Hm. unfold processed. destruct o as [outs r]. destruct r; unfold stage_sim; cbn; rewrite ?H2, ?H4; repeat split; try constructor; exact Hm.
  Qed.
  Lemma sim_receive k s s' x : stage_sim s s' -> stage_sim (receive (bs k) s x) (receive (bs' k) s' x).
  Proof.
    intros H. pose proof H as (_ & _ & H3 & _). unfold receive. rewrite H3. destruct (same k) as [_ Hs]. destruct (Hs (rcvd s ++ [x])) as (E1 & _ & E3). rewrite E1. apply sim_processed; [exact H | exact E3].
  Qed.
  Lemma sim_end k s s' : stage_sim s s' -> stage_sim (see_end (bs k) s) (see_end (bs' k) s').
  Proof.
    intros H. pose proof H as (_ & _ & H3 & _). unfold see_end. rewrite H3. destruct (same k) as [_ Hs]. destruct (Hs (rcvd s)) as (_ & E2 & E3). rewrite E2. apply sim_processed; [exact H | exact E3].
  Qed.
  Lemma sim_with s s' p p' e : stage_sim s s' -> pc_sim p p' -> stage_sim (with_pc s p e) (with_pc s' p' e).
  Proof. intros (H1 & H2 & H3 & H4 & H5) Hp. unfold stage_sim. cbn. auto. Qed.
  Definition opt_sim {A} (R : A -> A -> Prop) (x x' : option A) : Prop := match x, x' with Some a, Some a' => R a a' | None, None => True | _, _ => False end.
  Lemma sim_hear k s s' i e : stage_sim s s' -> opt_sim stage_sim (hear (bs k) s i e) (hear (bs' k) s' i e).
  Proof.
    intros H. pose proof H as (H1 & H2 & _). unfold hear. destruct (same k) as [-> _]. destruct H1 as [[|outs st m br se| | |]|o st m m' br se Hm]; unfold opt_sim; auto.
    - apply sim_with; [exact H | constructor].
    - destruct (can_send (how (bs k)) i && (i <? length outs)); auto. apply sim_with; [exact H | constructor].
    - rewrite H2. apply sim_with; [exact H | constructor].
    - destruct (can_send (how (bs k)) i && (i <? length o)); auto. apply sim_with; [exact H | constructor; exact Hm].
  Qed.
  Lemma sim_go s s' : stage_sim s s' -> opt_sim stage_sim (go_on s) (go_on s').
  Proof.
    intros H. pose proof H as (H1 & H2 & _). unfold go_on. rewrite H2. destruct H1 as [[|[|x outs] st m br se| | |]|[|x o] st m m' br se Hm]; unfold opt_sim; auto.
    - destruct (br || se); [apply sim_with; [exact H | constructor]|]. destruct st; [destruct m as [|[o r] m]|]; apply sim_with; try exact H; constructor.
    - destruct (br || se); [apply sim_with; [exact H | constructor]|]. destruct st; [destruct m as [|[o r] m]; destruct m' as [|[o' r'] m']; try discriminate Hm|]; apply sim_with; try exact H; try constructor.
      cbn in Hm. injection Hm as -> -> Hm. constructor. exact Hm.
  Qed.
  Lemma sim_offer k s s' i : stage_sim s s' -> offer (bs' k) s' i = offer (bs k) s i.
  Proof. intros (H1 & _). unfold offer. destruct (same k) as [-> _]. destruct H1 as [[]|]; reflexivity. Qed.
  Lemma sim_sent s s' i x : stage_sim s s' -> stage_sim (did_send s i x) (did_send s' i x).
  Proof.
    intros H. pose proof H as (H1 & H2 & H3 & H4 & H5). unfold did_send. destruct H1 as [[]|o st m m' br se Hm] eqn:E; try exact H; unfold stage_sim; cbn; rewrite ?H2, ?H3, ?H4, ?H5; repeat split; constructor. exact Hm.
  Qed.
  Lemma sim_err s s' : stage_sim s s' -> err_of s' = err_of s.
  Proof. intros (H1 & _). unfold err_of. destruct H1 as [[]|]; reflexivity. Qed.
  Lemma sim_closed s s' : stage_sim s s' -> closed_out s' = closed_out s.
  Proof. intros (H1 & _). unfold closed_out. destruct H1 as [[]|]; reflexivity. Qed.
  Lemma sim_recv s s' : stage_sim s s' -> (match pc s' with Recv => true | _ => false end) = match pc s with Recv => true | _ => false end.
  Proof. intros (H1 & _). destruct H1 as [[]|]; reflexivity. Qed.
  Lemma sim_fin s s' : stage_sim s s' -> stage_sim (finished s) (finished s').
  Proof. intros H. unfold finished. pose proof H as (_ & -> & _). apply sim_with; [exact H | constructor]. Qed.
  Lemma sim_with_stages p p' l l' : pipe_sim p p' -> Forall2 stage_sim l l' -> pipe_sim (with_stages p l) (with_stages p' l').
  Proof. intros (_ & H2 & H3 & H4) H. unfold pipe_sim. cbn. auto. Qed.

  Lemma recv_match {B} (s s' : stage) (x y x' y' : B) (R : B -> B -> Prop) : stage_sim s s' -> R x x' -> R y y' ->
    R (match pc s with Recv => x | _ => y end) (match pc s' with Recv => x' | _ => y' end).
  Proof. intros (H1 & _) Hx Hy. destruct H1 as [[]|]; assumption. Qed.

  Lemma sim_step p p' a : pipe_sim p p' -> opt_sim pipe_sim (pipe_step tick bs p a) (pipe_step tick bs' p' a).
  Proof.
    intros H. pose proof H as (HS & HP & HD & HW). pose proof (Forall2_nth _ _ HS) as HN.
    destruct a as [|k i|k|k i|k| | |]; cbn [pipe_step].
    - rewrite HP. destruct (pump p); try exact I. specialize (HN 0). destruct (nth_error (stages p) 0) as [s|], (nth_error (stages p') 0) as [s'|]; try contradiction; try exact I.
      apply (recv_match s s' _ _ _ _ (opt_sim pipe_sim) HN); [|exact I]. apply sim_with_stages; [exact H|]. apply (Forall2_set _ _ HS 0). exact (sim_receive 0 s s' tick HN).
    - pose proof (HN k) as HNk. specialize (HN (S k)). destruct (nth_error (stages p) k) as [s|], (nth_error (stages p') k) as [s'|]; try contradiction; [|exact I].
      rewrite (sim_offer k s s' i HNk). destruct (offer (bs k) s i) as [x|]; [|exact I].
      pose proof (Forall2_set _ _ HS k _ _ (sim_sent s s' i x HNk)) as HS1.
      destruct (nth_error (stages p) (S k)) as [t|], (nth_error (stages p') (S k)) as [t'|]; try contradiction.
      + apply (recv_match t t' _ _ _ _ (opt_sim pipe_sim) HN); [|exact I]. apply sim_with_stages; [exact H|]. apply (Forall2_set _ _ HS1 (S k)). apply sim_receive. exact HN.
      + rewrite HD. destruct (drained p); [exact I|]. apply sim_with_stages; [exact H | exact HS1].
    - destruct k as [|j]; [exact I|]. pose proof (HN j) as HNj. specialize (HN (S j)).
      destruct (nth_error (stages p) j) as [s|], (nth_error (stages p') j) as [s'|]; try contradiction; [|exact I].
      destruct (nth_error (stages p) (S j)) as [t|], (nth_error (stages p') (S j)) as [t'|]; try contradiction; [|exact I].
      apply (recv_match t t' _ _ _ _ (opt_sim pipe_sim) HN); [|exact I]. rewrite (sim_closed s s' HNj). destruct (closed_out s); [|exact I].
      apply sim_with_stages; [exact H|]. apply (Forall2_set _ _ HS (S j)). apply sim_end. exact HN.
    - pose proof (HN k) as HNk. specialize (HN (S k)). destruct (nth_error (stages p) k) as [s|], (nth_error (stages p') k) as [s'|]; try contradiction; [|exact I].
      destruct (nth_error (stages p) (S k)) as [t|], (nth_error (stages p') (S k)) as [t'|]; try contradiction.
      + rewrite (sim_err t t' HN). destruct (err_of t) as [e|]; [|exact I]. pose proof (sim_hear k s s' i e HNk) as Hh.
        destruct (hear (bs k) s i e) as [u|], (hear (bs' k) s' i e) as [u'|]; try contradiction; [|exact I].
        apply sim_with_stages; [exact H|]. apply (Forall2_set _ _ (Forall2_set _ _ HS (S k) _ _ (sim_fin t t' HN)) k). exact Hh.
      + rewrite HD. destruct (drained p); [|exact I]. pose proof (sim_hear k s s' i [] HNk) as Hh.
        destruct (hear (bs k) s i []) as [u|], (hear (bs' k) s' i []) as [u'|]; try contradiction; [|exact I].
        apply sim_with_stages; [exact H|]. apply (Forall2_set _ _ HS k). exact Hh.
    - specialize (HN k). destruct (nth_error (stages p) k) as [s|], (nth_error (stages p') k) as [s'|]; try contradiction; [|exact I].
      pose proof (sim_go s s' HN) as Hg. destruct (go_on s) as [u|], (go_on s') as [u'|]; try contradiction; [|exact I].
      apply sim_with_stages; [exact H|]. apply (Forall2_set _ _ HS k). exact Hg.
    - assert (Hlen : length (stages p') = length (stages p)) by (clear - HS; induction HS; cbn; congruence). rewrite Hlen. specialize (HN (pred (length (stages p)))).
      destruct (nth_error (stages p) (pred (length (stages p)))) as [s|], (nth_error (stages p') (pred (length (stages p)))) as [s'|]; try contradiction; [|exact I].
      rewrite (sim_closed s s' HN), HD. destruct (closed_out s && negb (drained p)); [|exact I]. unfold opt_sim, pipe_sim. cbn. auto.
    - rewrite HP. destruct (pump p); try exact I. specialize (HN 0). destruct (nth_error (stages p) 0) as [s|], (nth_error (stages p') 0) as [s'|]; try contradiction; try exact I.
      rewrite (sim_err s s' HN). destruct (err_of s) as [e|]; [|exact I]. unfold opt_sim, pipe_sim. cbn [stages pump drained waited]. split; [|auto]. apply (Forall2_set _ _ HS 0). exact (sim_fin s s' HN).
    - rewrite HW, HP. destruct (waited p); cbn; auto. destruct (pump p); cbn; auto; unfold pipe_sim; cbn; auto.
  Qed.

  Lemma sim_run l : forall p p', pipe_sim p p' -> pipe_sim (run (pipe_step tick bs) p l) (run (pipe_step tick bs') p' l).
  Proof.
    induction l as [|a l IH]; intros p p' H; [exact H|]. rewrite !run_cons. apply IH. unfold do. pose proof (sim_step p p' a H) as Hs.
    destruct (pipe_step tick bs p a), (pipe_step tick bs' p' a); try contradiction; [exact Hs | exact H].
  Qed.
  Lemma stream_error_same n l : let p := run (pipe_step tick bs) (pipe_start n) l in let p' := run (pipe_step tick bs') (pipe_start n) l in
    waited p' = waited p /\ map rcvd (stages p') = map rcvd (stages p) /\ map sent (stages p') = map sent (stages p).
  Proof.
    intros p p'. assert (H : pipe_sim p p').
    { apply sim_run. unfold pipe_sim. cbn. split; [|auto]. induction n as [|n IH]; cbn; constructor; [|exact IH]. unfold stage_sim. cbn. repeat split. constructor. }
    destruct H as (H & _ & _ & Hw). split; [exact Hw|]. clear - H. induction H as [|s s' l1 l2 (_ & _ & H3 & H4 & _) _ [IH1 IH2]]; cbn; [auto|].
    rewrite H3, H4, IH1, IH2. auto.
  Qed.
End Same.
