(** The wiring that NewProcessor and Resume make, in closed form. *)
From Verif Require Import Base BaseLemmas WireModel.

Record cell : Type := mk_cell { v_inc : list (option chan); v_out : list (option chan); v_nerr : list (option chan); v_err : option chan; v_close : closer }.
Definition view (n : net) (s : sid) : cell := mk_cell (inc n s) (out n s) (nerr n s) (err n s) (close_of n s).

Lemma upd_same {A} (f : sid -> A) s x : upd f s x s = x.
Proof. unfold upd. destruct (sid_dec s s); congruence. Qed.
Lemma upd_other {A} (f : sid -> A) s t x : t <> s -> upd f s x t = f t.
Proof. unfold upd. intros H. destruct (sid_dec t s); congruence. Qed.

Section Fold.
  Variable step : net -> sid -> net.
  Variable g : sid -> cell -> cell.
  Hypothesis Hother : forall m s t, t <> s -> view (step m s) t = view m t.
  Hypothesis Hsame : forall m s, view (step m s) s = g s (view m s).
  Hypothesis Hidem : forall s v, g s (g s v) = g s v.
  Lemma fold_view l : forall m t, view (fold_left step l m) t = if in_dec sid_dec t l then g t (view m t) else view m t.
  Proof.
    induction l as [|s l IH]; intros m t; [reflexivity|]. cbn [fold_left]. rewrite IH. destruct (sid_dec t s) as [->|Hne].
    - rewrite Hsame, Hidem. destruct (in_dec sid_dec s l); destruct (in_dec sid_dec s (s :: l)) as [|Hn]; try reflexivity; exfalso; apply Hn; left; reflexivity.
    - rewrite (Hother m s t Hne). destruct (in_dec sid_dec t l) as [H1|H1]; destruct (in_dec sid_dec t (s :: l)) as [H2|H2]; try reflexivity.
      + exfalso. apply H2. right. exact H1.
      + exfalso. destruct H2 as [->|H2]; [apply Hne; reflexivity | exact (H1 H2)].
  Qed.
End Fold.
Lemma fold_gos {B} (step : net -> B -> net) (h : B -> list gor) : (forall m b, gos (step m b) = gos m ++ h b) -> forall l m, gos (fold_left step l m) = gos m ++ flat_map h l.
Proof.
  intros H. induction l as [|b l IH]; intros m; [cbn; rewrite app_nil_r; reflexivity|]. cbn [fold_left flat_map]. rewrite IH, H, app_assoc. reflexivity.
Qed.
Lemma fold_view_same {B} (step : net -> B -> net) : (forall m b t, view (step m b) t = view m t) -> forall l m t, view (fold_left step l m) t = view m t.
Proof. intros H. induction l as [|b l IH]; intros m t; [reflexivity|]. cbn [fold_left]. rewrite IH. apply H. Qed.

(** ** Preparing *)
Definition g_prep (s : sid) (v : cell) : cell :=
  mk_cell (map (fun i => Some (CIn s i)) (seq 0 (length (v_inc v)))) (v_out v) (repeat None (length (v_out v))) (Some (CErr s)) (v_close v).
Definition g_full (s : sid) (v : cell) : cell :=
  let v1 := g_prep s v in
  if is_source s then v1 else if is_sink s then mk_cell (v_inc v1) [Some (CDrain s)] [Some (CDrainErr s)] (v_err v1) (v_close v1) else v1.
Definition prep_gos (s : sid) : list gor := if is_source s then [GPump s] else if is_sink s then [GDrain (CDrain s) (CDrainErr s)] else [].
Lemma prep_other m s t : t <> s -> view (prepare_stage m s) t = view m t.
Proof. intros H. unfold view, prepare_stage. cbn. rewrite !upd_other by exact H. reflexivity. Qed.
Lemma prep_same m s : view (prepare_stage m s) s = g_prep s (view m s).
Proof. unfold view, prepare_stage. cbn. rewrite !upd_same. reflexivity. Qed.
Lemma full_other m s t : t <> s -> view (prepare m s) t = view m t.
Proof.
  intros H. unfold prepare. destruct (is_source s); [exact (prep_other m s t H)|]. destruct (is_sink s); [|exact (prep_other m s t H)].
  rewrite <- (prep_other m s t H). unfold view, prepare_sink. cbn. rewrite !upd_other by exact H. reflexivity.
Qed.
Lemma full_same m s : view (prepare m s) s = g_full s (view m s).
Proof.
  unfold prepare, g_full. destruct (is_source s); [exact (prep_same m s)|]. destruct (is_sink s); [|exact (prep_same m s)].
  rewrite <- (prep_same m s). unfold view, prepare_sink. cbn. rewrite !upd_same. reflexivity.
Qed.
Lemma g_prep_idem s v : g_prep s (g_prep s v) = g_prep s v.
Proof. unfold g_prep. cbn. rewrite map_length, seq_length. reflexivity. Qed.
Lemma g_full_idem s v : g_full s (g_full s v) = g_full s v.
Proof.
  unfold g_full. destruct (is_source s); [apply g_prep_idem|]. destruct (is_sink s); [|apply g_prep_idem]. cbn. rewrite map_length, seq_length. reflexivity.
Qed.
Lemma prep_no_gos m s : gos (prepare_stage m s) = gos m ++ []. Proof. cbn. rewrite app_nil_r. reflexivity. Qed.
Lemma full_gos m s : gos (prepare m s) = gos m ++ prep_gos s.
Proof. unfold prepare, prep_gos. destruct (is_source s); [reflexivity|]. destruct (is_sink s); cbn; rewrite ?app_nil_r; reflexivity. Qed.

(** ** Linking *)
Lemma fold_opt_app {A B} (f : A -> B -> option A) l1 l2 a : fold_opt f (l1 ++ l2) a = fold_opt f l2 (fold_opt f l1 a).
Proof. apply fold_left_app. Qed.
Lemma nth_set_same {A} o (x : A) l : o < length l -> nth_error (set_nth o x l) o = Some x.
Proof. revert o. induction l as [|y l IH]; intros o H; [cbn in H; lia|]. destruct o; [reflexivity|]. cbn. apply IH. cbn in H. lia. Qed.
Lemma nth_set_other {A} o k (x : A) l : k <> o -> nth_error (set_nth o x l) k = nth_error l k.
Proof.
  revert o k. induction l as [|y l IH]; intros o k H; [destruct o; reflexivity|]. destruct o; destruct k; try reflexivity; try congruence.
  cbn. apply IH. congruence.
Qed.
Definition quad : Type := sid * nat * sid * nat.
Definition fits (n : net) (q : quad) : Prop := let '(p, o, t, i) := q in i < length (inc n t) /\ o < length (out n p) /\ o < length (nerr n p).
(** one channel is linked to one place only *)
Definition functional (l : list quad) : Prop := forall p o t i t' i', In (p, o, t, i) l -> In (p, o, t', i') l -> t = t' /\ i = i'.
Definition key_dec : forall a b : sid * nat, {a = b} + {a <> b}. Proof. decide equality; [apply Nat.eq_dec | apply sid_dec]. Defined.
Definition keys (l : list quad) : list (sid * nat) := map (fun q => (fst (fst (fst q)), snd (fst (fst q)))) l.
Lemma keys_in l p o : In (p, o) (keys l) <-> exists t i, In (p, o, t, i) l.
Proof.
  unfold keys. rewrite in_map_iff. split.
  - intros ([[[p' o'] t] i] & E & H). cbn in E. injection E as -> ->. exists t, i. exact H.
  - intros (t & i & H). exists (p, o, t, i). auto.
Qed.
Definition frame (n n' : net) : Prop :=
  (forall s, inc n' s = inc n s) /\ (forall s, err n' s = err n s) /\ (forall s, close_of n' s = close_of n s) /\ gos n' = gos n /\
  (forall s, length (out n' s) = length (out n s)) /\ forall s, length (nerr n' s) = length (nerr n s).
Lemma frame_refl n : frame n n. Proof. repeat split. Qed.
Lemma frame_trans a b c : frame a b -> frame b c -> frame a c.
Proof. intros (A1 & A2 & A3 & A4 & A5 & A6) (B1 & B2 & B3 & B4 & B5 & B6). repeat split; intros; congruence. Qed.

Lemma link_one n p o t i : fits n (p, o, t, i) -> exists n', link_at n (p, o, t, i) = Some n' /\ frame n n' /\
  nth_error (out n' p) o = nth_error (inc n t) i /\ nth_error (nerr n' p) o = Some (err n t) /\
  forall s k, (s, k) <> (p, o) -> nth_error (out n' s) k = nth_error (out n s) k /\ nth_error (nerr n' s) k = nth_error (nerr n s) k.
Proof.
  intros (Hi & Ho & Hn). unfold link_at. destruct (nth_error (inc n t) i) as [c|] eqn:Ec; [|apply nth_error_None in Ec; lia].
  destruct (nth_error (out n p) o) eqn:Eo; [|apply nth_error_None in Eo; lia]. destruct (nth_error (nerr n p) o) eqn:En; [|apply nth_error_None in En; lia].
  eexists. split; [reflexivity|]. cbn. repeat split; intros; cbn.
  - unfold upd. destruct (sid_dec s p) as [->|]; [apply set_nth_length | reflexivity].
  - unfold upd. destruct (sid_dec s p) as [->|]; [apply set_nth_length | reflexivity].
  - rewrite upd_same. apply nth_set_same. exact Ho.
  - rewrite upd_same. apply nth_set_same. exact Hn.
  - unfold upd. destruct (sid_dec s p) as [->|]; [|reflexivity]. apply nth_set_other. congruence.
  - unfold upd. destruct (sid_dec s p) as [->|]; [|reflexivity]. apply nth_set_other. congruence.
Qed.
Lemma fits_frame n n' q : frame n n' -> fits n q -> fits n' q.
Proof. destruct q as [[[p o] t] i]. intros (A1 & A2 & A3 & A4 & A5 & A6) (B1 & B2 & B3). repeat split; congruence. Qed.
Lemma links_ok l : forall n, Forall (fits n) l -> functional l -> exists n', fold_opt link_at l (Some n) = Some n' /\ frame n n' /\
  (forall p o t i, In (p, o, t, i) l -> nth_error (out n' p) o = nth_error (inc n t) i /\ nth_error (nerr n' p) o = Some (err n t)) /\
  forall s k, ~ In (s, k) (keys l) -> nth_error (out n' s) k = nth_error (out n s) k /\ nth_error (nerr n' s) k = nth_error (nerr n s) k.
Proof.
  induction l as [|q l IH]; intros n HF Hfun.
  - exists n. split; [reflexivity|]. split; [apply frame_refl|]. split; [intros ? ? ? ? [] | auto].
  - inversion HF as [|? ? Hq Hl]; subst. destruct q as [[[p o] t] i]. destruct (link_one n p o t i Hq) as (n1 & E1 & F1 & O1 & N1 & R1).
    destruct (IH n1) as (n2 & E2 & F2 & O2 & R2).
    { eapply Forall_impl; [|exact Hl]. intros q. apply fits_frame. exact F1. }
    { intros a b c d c' d' H1 H2. apply (Hfun a b); right; assumption. }
    exists n2. split; [unfold fold_opt in *; cbn [fold_left bind]; rewrite E1; exact E2|]. split; [exact (frame_trans _ _ _ F1 F2)|].
    destruct F1 as (A1 & A2 & _). split.
    + intros p' o' t' i' [E|Hin].
      * injection E as <- <- <- <-. destruct (in_dec key_dec (p, o) (keys l)) as [Hk|Hk].
        -- apply keys_in in Hk as (t'' & i'' & Hk). destruct (Hfun p o t i t'' i'' (or_introl eq_refl) (or_intror Hk)) as [<- <-].
           destruct (O2 _ _ _ _ Hk) as [X Y]. rewrite X, Y, A1, A2. auto.
        -- destruct (R2 p o Hk) as [X Y]. rewrite X, Y, O1, N1. auto.
      * destruct (O2 _ _ _ _ Hin) as [X Y]. rewrite X, Y, A1, A2. auto.
    + intros s k Hk. cbn in Hk. destruct (R2 s k) as [X Y]; [tauto|]. destruct (R1 s k) as [X1 Y1]; [intros E; apply Hk; left; congruence|]. rewrite X, Y, X1, Y1. auto.
Qed.

(** ** Criss-cross *)
Definition g_prev (k len : nat) (p : sid) (v : cell) : cell :=
  mk_cell (v_inc v) (set_nth 0 (Some (CShared k)) (v_out v)) (set_nth 0 (Some (CBack p)) (v_nerr v)) (v_err v) (CloseShared k len).
Definition g_next (k : nat) (v : cell) : cell := mk_cell (set_nth 0 (Some (CShared k)) (v_inc v)) (v_out v) (v_nerr v) (v_err v) (v_close v).
Lemma set_twice {A} (x y : A) l : set_nth 0 x (set_nth 0 y l) = set_nth 0 x l. Proof. destruct l; reflexivity. Qed.
Definition criss_gos (k : nat) (ps ts : list sid) : list gor := [GDist k ps] ++ map (GCol k) ts ++ [GAggClose k ts].
Lemma view_spawn m g s : view (spawn m g) s = view m s. Proof. reflexivity. Qed.
Ltac one_field H := let m := fresh in let a := fresh in let b := fresh in intros m a b H; unfold view; cbn; rewrite ?upd_other by exact H; reflexivity.
Lemma criss_ok k n ps ts : Forall (fun p => length (out n p) = 1) ps -> Forall (fun t => length (inc n t) = 1) ts -> (forall s, In s ps -> ~ In s ts) -> exists n',
  criss k n ps ts = Some n' /\ gos n' = gos n ++ criss_gos k ps ts /\
  forall s, view n' s = if in_dec sid_dec s ps then g_prev k (length ps) s (view n s) else if in_dec sid_dec s ts then g_next k (view n s) else view n s.
Proof.
  intros Hp Ht Hd. unfold criss.
  replace (forallb (fun p => length (out n p) =? 1) ps) with true by (symmetry; apply forallb_forall; intros x Hx; apply Nat.eqb_eq; rewrite Forall_forall in Hp; exact (Hp x Hx)).
  replace (forallb (fun t => length (inc n t) =? 1) ts) with true by (symmetry; apply forallb_forall; intros x Hx; apply Nat.eqb_eq; rewrite Forall_forall in Ht; exact (Ht x Hx)).
  cbn [andb]. eexists. split; [reflexivity|]. split.
  - unfold criss_gos. unfold spawn at 1. cbn [gos]. rewrite (fold_gos _ (fun t => [GCol k t])) by reflexivity. unfold spawn at 1. cbn [gos].
    rewrite (fold_gos _ (fun _ => [])) by (intros; cbn; rewrite app_nil_r; reflexivity).
    rewrite (fold_gos _ (fun _ => [])) by (intros; cbn; rewrite app_nil_r; reflexivity).
    rewrite (fold_gos _ (fun _ => [])) by (intros; cbn; rewrite app_nil_r; reflexivity).
    rewrite (fold_gos _ (fun _ => [])) by (intros; cbn; rewrite app_nil_r; reflexivity).
    assert (Z : forall l : list sid, flat_map (fun _ => @nil gor) l = []) by (induction l; cbn; auto). rewrite !Z, !app_nil_r.
    assert (Z2 : flat_map (fun t => [GCol k t]) ts = map (GCol k) ts) by (clear; induction ts as [|x l IH]; [reflexivity|]; cbn; rewrite IH; reflexivity).
    rewrite Z2, <- !app_assoc. reflexivity.
  - intros s. rewrite view_spawn, fold_view_same by reflexivity. rewrite view_spawn.
    rewrite (fold_view _ (fun p v => mk_cell (v_inc v) (v_out v) (set_nth 0 (Some (CBack p)) (v_nerr v)) (v_err v) (v_close v)));
      [| one_field H | intros; unfold view; cbn; rewrite ?upd_same; reflexivity | intros; cbn [v_inc v_out v_nerr v_err v_close]; rewrite set_twice; reflexivity].
    rewrite (fold_view _ (fun p v => mk_cell (v_inc v) (v_out v) (v_nerr v) (v_err v) (CloseShared k (length ps))));
      [| one_field H | intros; unfold view; cbn; rewrite ?upd_same; reflexivity | reflexivity].
    rewrite (fold_view _ (fun p v => g_next k v)); [| one_field H | intros; unfold view; cbn; rewrite ?upd_same; reflexivity | intros; unfold g_next; cbn [v_inc v_out v_nerr v_err v_close]; rewrite set_twice; reflexivity].
    rewrite (fold_view _ (fun p v => mk_cell (v_inc v) (set_nth 0 (Some (CShared k)) (v_out v)) (v_nerr v) (v_err v) (v_close v)));
      [| one_field H | intros; unfold view; cbn; rewrite ?upd_same; reflexivity | intros; cbn [v_inc v_out v_nerr v_err v_close]; rewrite set_twice; reflexivity].
    destruct (in_dec sid_dec s ps) as [H1|H1]; destruct (in_dec sid_dec s ts) as [H2|H2]; try reflexivity. exfalso. exact (Hd s H1 H2).
Qed.

(** ** Lists of stages *)
Lemma in_each (f : nat -> sid) k s : In s (each f k) <-> exists i, i < k /\ s = f i.
Proof.
  unfold each. rewrite in_map_iff. split.
  - intros (i & <- & H). apply in_seq in H. exists i. split; [lia | reflexivity].
  - intros (i & H & ->). exists i. split; [reflexivity|]. apply in_seq. lia.
Qed.
Lemma each_length f k : length (each f k) = k. Proof. unfold each. rewrite map_length, seq_length. reflexivity. Qed.
Lemma each_nth f k i : i < k -> nth_error (each f k) i = Some (f i).
Proof. intros H. unfold each. rewrite nth_error_map. rewrite (nth_error_nth' (seq 0 k) 0) by (rewrite seq_length; exact H). cbn. rewrite seq_nth by exact H. reflexivity. Qed.
Lemma filter_each (p : sid -> bool) (b : bool) f k : (forall i, p (f i) = b) -> filter p (each f k) = if b then each f k else [].
Proof.
  intros H. unfold each. generalize (seq 0 k). induction l as [|i l IH]; [destruct b; reflexivity|]. cbn [map filter]. rewrite H, IH. destruct b; reflexivity.
Qed.
Lemma all_some_map {A B} (f : A -> option B) g l : (forall x, In x l -> f x = Some (g x)) -> all_some (map f l) = Some (map g l).
Proof.
  induction l as [|x l IH]; intros H; [reflexivity|]. cbn [map all_some]. rewrite (H x (or_introl eq_refl)). cbn [bind]. rewrite IH by (intros y Hy; apply H; right; exact Hy). reflexivity.
Qed.
Lemma nth_ext_err {A} (l1 l2 : list A) : (forall i, nth_error l1 i = nth_error l2 i) -> l1 = l2.
Proof.
  revert l2. induction l1 as [|x l1 IH]; intros l2 H; [destruct l2 as [|y l2]; [reflexivity|]; specialize (H 0); discriminate H|].
  destruct l2 as [|y l2]; [specialize (H 0); discriminate H|]. pose proof (H 0) as H0. cbn in H0. injection H0 as ->. f_equal. apply IH. intros i. exact (H (Datatypes.S i)).
Qed.
Lemma stages_from_each is l1 f k l2 : (forall i, is (f i) = true) -> stages_from is (l1 ++ each f k ++ l2) (length l1) k = Some (each f k).
Proof.
  intros H. unfold stages_from, each at 2. apply all_some_map. intros i Hi. apply in_seq in Hi. unfold stage_at.
  rewrite nth_error_app2 by lia. replace (length l1 + i - length l1) with i by lia. rewrite nth_error_app1 by (rewrite each_length; lia).
  rewrite each_nth by lia. cbn [bind]. rewrite H. reflexivity.
Qed.

Section Closed.
  Variable S W C N : nat.
  Notation file_stages := (file_stages S W C).
  Notation db_stages := (db_stages N).
  Notation joined := (joined S W C N).
  Notation skipped := (skipped S W C N).

  Definition valid (s : sid) : Prop :=
    match s with
    | FSrc | FSink | DSrc => True
    | Split i => i < S | Parse i => i < W | Dechain i => i < C
    | Batcher i | Extractor i | CertCsv i | CertIns i | CertRem i | DomBatcher i | DomCsv i | DomIns i | DomRem i => i < N
    end.
  (** the stages that are resumed *)
  Definition live (s : sid) : Prop := match s with FSink | DSrc => False | _ => valid s end.
  Lemma joined_list : joined = [FSrc] ++ each Split S ++ each Parse W ++ each Dechain C ++ each Batcher N ++ each Extractor N ++ each CertCsv N ++ each CertIns N ++ each CertRem N ++
    each DomBatcher N ++ each DomCsv N ++ each DomIns N ++ each DomRem N.
  Proof.
    unfold joined, file_stages, db_stages. rewrite !filter_app. cbn [filter is_sink is_source negb].
    rewrite (filter_each _ true Split), (filter_each _ true Parse), (filter_each _ true Dechain), (filter_each _ true Batcher), (filter_each _ true Extractor), (filter_each _ true CertCsv),
      (filter_each _ true CertIns), (filter_each _ true CertRem), (filter_each _ true DomBatcher), (filter_each _ true DomCsv), (filter_each _ true DomIns), (filter_each _ true DomRem) by reflexivity.
    rewrite app_nil_r, <- !app_assoc. reflexivity.
  Qed.
  Lemma skipped_list : skipped = [FSink; DSrc].
  Proof.
    unfold skipped, file_stages, db_stages. rewrite !filter_app. cbn [filter is_sink is_source negb].
    rewrite (filter_each _ false Split), (filter_each _ false Parse), (filter_each _ false Dechain), (filter_each _ false Batcher), (filter_each _ false Extractor), (filter_each _ false CertCsv),
      (filter_each _ false CertIns), (filter_each _ false CertRem), (filter_each _ false DomBatcher), (filter_each _ false DomCsv), (filter_each _ false DomIns), (filter_each _ false DomRem) by reflexivity.
    reflexivity.
  Qed.
  Lemma joined_in s : In s joined <-> live s.
  Proof.
    rewrite joined_list, !in_app_iff, !in_each. cbn [In]. split.
    - intros H. repeat destruct H as [H|H]; try (destruct H as (i & Hi & ->); exact Hi); try (subst s; exact I); contradiction.
    - destruct s as [|i|i|i| | |i|i|i|i|i|i|i|i|i]; intros H; cbn in H; try contradiction;
        repeat (first [ left; first [ reflexivity | left; reflexivity | exists i; split; [exact H | reflexivity] ] | right ]); try (exists i; split; [exact H | reflexivity]); auto.
  Qed.
  Lemma skipped_in s : In s skipped <-> s = FSink \/ s = DSrc.
  Proof. rewrite skipped_list. cbn. intuition congruence. Qed.

  Definition n_prep : net := prepare_joined S W C N (new_net N).
  Lemma prep_view s : valid s -> view n_prep s = (if is_source s then g_prep s else if is_sink s then (if sid_dec s FSink then g_prep s else g_full s) else g_prep s) (view (new_net N) s).
  Proof.
    intros Hv. unfold n_prep, prepare_joined. rewrite (fold_view _ g_prep prep_other prep_same g_prep_idem), (fold_view _ g_full full_other full_same g_full_idem).
    destruct (in_dec sid_dec s (WireModel.skipped S W C N)) as [H1|H1]; rewrite skipped_in in H1; destruct (in_dec sid_dec s (WireModel.joined S W C N)) as [H2|H2]; rewrite joined_in in H2.
    - destruct H1 as [-> | ->]; contradiction.
    - destruct H1 as [-> | ->]; reflexivity.
    - destruct s; cbn in *; try reflexivity; exfalso; tauto.
    - exfalso. destruct s; cbn in *; tauto.
  Qed.
  Lemma prep_gos_list : gos n_prep = flat_map prep_gos joined.
  Proof.
    unfold n_prep, prepare_joined. rewrite (fold_gos _ (fun _ => [])) by (intros; apply prep_no_gos). rewrite (fold_gos _ prep_gos) by apply full_gos. cbn [gos new_net app].
    rewrite skipped_list. cbn. rewrite app_nil_r. reflexivity.
  Qed.

  Lemma file_lists : source_stage file_stages = Some FSrc /\ stages_from as_split file_stages 1 S = Some (each Split S) /\ stages_from as_parse file_stages (1 + S) W = Some (each Parse W) /\
    stages_from as_dechain file_stages (1 + S + W) C = Some (each Dechain C) /\ sink_stage file_stages = Some FSink.
  Proof.
    unfold WireModel.file_stages. split; [reflexivity|]. split; [|split; [|split]].
    - change 1 with (length [FSrc]). apply stages_from_each. reflexivity.
    - replace (1 + S) with (length ([FSrc] ++ each Split S)) by (rewrite app_length, each_length; reflexivity). rewrite (app_assoc [FSrc]). apply stages_from_each. reflexivity.
    - replace (1 + S + W) with (length (([FSrc] ++ each Split S) ++ each Parse W)) by (rewrite !app_length, !each_length; reflexivity).
      rewrite (app_assoc [FSrc]), (app_assoc ([FSrc] ++ each Split S)). apply stages_from_each. reflexivity.
    - unfold sink_stage. rewrite !app_length, !each_length. cbn [length]. rewrite !app_assoc. rewrite nth_error_app2 by (rewrite !app_length, !each_length; cbn; lia).
      rewrite !app_length, !each_length. cbn [length]. match goal with |- bind (nth_error _ ?k) _ = _ => replace k with 0 by lia end. reflexivity.
  Qed.
  Lemma to_certs_list : filter as_dechain file_stages = each Dechain C.
  Proof.
    unfold file_stages. rewrite !filter_app. cbn [filter as_dechain]. rewrite (filter_each _ false Split), (filter_each _ false Parse), (filter_each _ true Dechain) by reflexivity.
    cbn. rewrite app_nil_r. reflexivity.
  Qed.

  (** *** The first half *)
  Definition file_cell (s : sid) (v : cell) : cell :=
    match s with
    | FSrc => g_prev 0 1 s v
    | Split _ => g_prev 1 S s (g_next 0 v)
    | Parse _ => g_prev 2 W s (g_next 1 v)
    | Dechain _ => g_prev 3 C s (g_next 2 v)
    | FSink => g_next 3 v
    | _ => v
    end.
  Definition file_gos : list gor :=
    criss_gos 0 [FSrc] (each Split S) ++ criss_gos 1 (each Split S) (each Parse W) ++ criss_gos 2 (each Parse W) (each Dechain C) ++ criss_gos 3 (each Dechain C) [FSink].
  Lemma view_out n s : out n s = v_out (view n s). Proof. reflexivity. Qed.
  Lemma view_inc n s : inc n s = v_inc (view n s). Proof. reflexivity. Qed.
  Ltac nots := let H := fresh in let H2 := fresh in intros s H H2; cbn [In] in H, H2; repeat (rewrite in_each in H || rewrite in_each in H2);
    repeat (match goal with X : _ \/ _ |- _ => destruct X | X : exists _, _ |- _ => destruct X as (? & ? & ?) | X : False |- _ => destruct X end); subst; discriminate.
  Ltac decide_in := match goal with |- context [in_dec sid_dec ?x ?l] => let Hin := fresh "Hin" in destruct (in_dec sid_dec x l) as [Hin|Hin];
    cbn [In] in Hin; rewrite ?in_each in Hin;
    try (exfalso; repeat (match goal with X : _ \/ _ |- _ => destruct X | X : exists _, _ |- _ => destruct X as (? & ? & ?) | X : False |- _ => destruct X end); discriminate);
    try (exfalso; apply Hin; first [ left; reflexivity | eexists; split; [|reflexivity]; assumption ]) end.
  Lemma files_ok n : (forall s, valid s -> match s with DSrc | Extractor _ | DomBatcher _ => True | _ => length (out n s) = 1 /\ length (inc n s) = 1 end) -> exists n',
    link_files S W C n = Some n' /\ gos n' = gos n ++ file_gos /\ forall s, valid s -> view n' s = file_cell s (view n s).
  Proof.
    intros Hlen. destruct file_lists as (E1 & E2 & E3 & E4 & E5). unfold link_files. rewrite E1, E2, E3, E4, E5. cbn [bind].
    destruct (criss_ok 0 n [FSrc] (each Split S)) as (n1 & X1 & G1 & V1).
    { constructor; [apply (Hlen FSrc I) | constructor]. } { apply Forall_forall. intros x Hx. apply in_each in Hx as (i & Hi & ->). apply (Hlen (Split i) Hi). } { nots. }
    rewrite X1. cbn [bind].
    destruct (criss_ok 1 n1 (each Split S) (each Parse W)) as (n2 & X2 & G2 & V2).
    { apply Forall_forall. intros x Hx. apply in_each in Hx as (i & Hi & ->). rewrite view_out, V1. repeat decide_in. apply (Hlen (Split i) Hi). }
    { apply Forall_forall. intros x Hx. apply in_each in Hx as (i & Hi & ->). rewrite view_inc, V1. repeat decide_in. apply (Hlen (Parse i) Hi). } { nots. }
    rewrite X2. cbn [bind].
    destruct (criss_ok 2 n2 (each Parse W) (each Dechain C)) as (n3 & X3 & G3 & V3).
    { apply Forall_forall. intros x Hx. apply in_each in Hx as (i & Hi & ->). rewrite view_out, V2, V1. repeat decide_in. apply (Hlen (Parse i) Hi). }
    { apply Forall_forall. intros x Hx. apply in_each in Hx as (i & Hi & ->). rewrite view_inc, V2, V1. repeat decide_in. apply (Hlen (Dechain i) Hi). } { nots. }
    rewrite X3. cbn [bind].
    destruct (criss_ok 3 n3 (each Dechain C) [FSink]) as (n4 & X4 & G4 & V4).
    { apply Forall_forall. intros x Hx. apply in_each in Hx as (i & Hi & ->). rewrite view_out, V3, V2, V1. repeat decide_in. apply (Hlen (Dechain i) Hi). }
    { constructor; [|constructor]. rewrite view_inc, V3, V2, V1. repeat decide_in. apply (Hlen FSink I). } { nots. }
    exists n4. split; [exact X4|]. split; [rewrite G4, G3, G2, G1; unfold file_gos; rewrite <- !app_assoc; reflexivity|].
    intros s Hv. rewrite V4, V3, V2, V1. destruct s; cbn in Hv; repeat decide_in; cbn [file_cell length]; rewrite ?each_length; reflexivity.
  Qed.

  (** *** The second half *)
  Definition one_links (f g : nat -> sid) : list quad := map (fun i => (f i, 0, g i, 0)) (seq 0 N).
  Definition all_links : list quad :=
    source_links N ++ one_links Batcher CertCsv ++ one_links CertCsv CertIns ++ one_links CertIns CertRem ++ domain_links N ++
    one_links DomBatcher DomCsv ++ one_links DomCsv DomIns ++ one_links DomIns DomRem.
  (** which channel goes where *)
  Definition db_link (p : sid) (o : nat) (t : sid) (i : nat) : Prop :=
    match p with
    | DSrc => (o < N /\ t = Batcher o /\ i = 0) \/ (exists j, j < N /\ o = j + N /\ t = Extractor j /\ i = 0)
    | Batcher a => a < N /\ o = 0 /\ t = CertCsv a /\ i = 0
    | CertCsv a => a < N /\ o = 0 /\ t = CertIns a /\ i = 0
    | CertIns a => a < N /\ o = 0 /\ t = CertRem a /\ i = 0
    | Extractor a => a < N /\ o < N /\ t = DomBatcher o /\ i = a
    | DomBatcher a => a < N /\ o = 0 /\ t = DomCsv a /\ i = 0
    | DomCsv a => a < N /\ o = 0 /\ t = DomIns a /\ i = 0
    | DomIns a => a < N /\ o = 0 /\ t = DomRem a /\ i = 0
    | _ => False
    end.
  Lemma one_in f g p o t i : In (p, o, t, i) (one_links f g) <-> exists a, a < N /\ p = f a /\ o = 0 /\ t = g a /\ i = 0.
  Proof.
    unfold one_links. rewrite in_map_iff. split.
    - intros (a & E & H). apply in_seq in H. injection E as <- <- <- <-. exists a. repeat split. lia.
    - intros (a & H & -> & -> & -> & ->). exists a. split; [reflexivity|]. apply in_seq. lia.
  Qed.
  Lemma source_in p o t i : In (p, o, t, i) (source_links N) <-> p = DSrc /\ ((o < N /\ t = Batcher o /\ i = 0) \/ (exists j, j < N /\ o = j + N /\ t = Extractor j /\ i = 0)).
  Proof.
    unfold source_links. rewrite in_app_iff, !in_map_iff. split.
    - intros [(a & E & H)|(a & E & H)]; apply in_seq in H; injection E as <- <- <- <-; (split; [reflexivity|]).
      + left. repeat split. lia.
      + right. exists a. repeat split. lia.
    - intros (-> & [(H & -> & ->)|(j & H & -> & -> & ->)]).
      + left. exists o. split; [reflexivity|]. apply in_seq. lia.
      + right. exists j. split; [reflexivity|]. apply in_seq. lia.
  Qed.
  Lemma domain_in p o t i : In (p, o, t, i) (domain_links N) <-> exists a, p = Extractor a /\ a < N /\ o < N /\ t = DomBatcher o /\ i = a.
  Proof.
    unfold domain_links. rewrite in_flat_map. split.
    - intros (a & Ha & H). apply in_map_iff in H as (j & E & Hj). apply in_seq in Ha. apply in_seq in Hj. injection E as <- <- <- <-. exists a. repeat split; lia.
    - intros (a & -> & Ha & Ho & -> & ->). exists a. split; [apply in_seq; lia|]. apply in_map_iff. exists o. split; [reflexivity|]. apply in_seq. lia.
  Qed.
  Lemma all_in p o t i : In (p, o, t, i) all_links <-> db_link p o t i.
  Proof.
    unfold all_links. rewrite !in_app_iff, !one_in, source_in, domain_in. split.
    - intros H. repeat destruct H as [H|H]; try (destruct H as (a & Ha & -> & -> & -> & ->); cbn; auto); try (destruct H as (-> & H); exact H).
      destruct H as (a & -> & H). exact H.
    - destruct p as [|a|a|a| | |a|a|a|a|a|a|a|a|a]; cbn; try contradiction.
      + tauto.
      + intros (H & -> & -> & ->). right. left. exists a. auto.
      + intros H. do 4 right. left. exists a. auto.
      + intros (H & -> & -> & ->). do 2 right. left. exists a. auto.
      + intros (H & -> & -> & ->). do 3 right. left. exists a. auto.
      + intros (H & -> & -> & ->). do 5 right. left. exists a. auto.
      + intros (H & -> & -> & ->). do 6 right. left. exists a. auto.
      + intros (H & -> & -> & ->). do 7 right. exists a. auto.
  Qed.
  Lemma db_link_functional p o t i t' i' : db_link p o t i -> db_link p o t' i' -> t = t' /\ i = i'.
  Proof.
    destruct p; cbn; try tauto; try (intuition congruence).
    intros [(A & -> & ->)|(j & A & -> & -> & ->)] [(B & -> & ->)|(j' & B & E & -> & ->)]; try (exfalso; lia); [auto|]. replace j' with j by lia. auto.
  Qed.
  Lemma fan_each_links f g n : (forall i, i < N -> length (out n (f i)) = 1) -> Forall (fits n) (one_links f g) -> (forall i j, f i = f j -> i = j) ->
    fan_each N f g (Some n) = fold_opt link_at (one_links f g) (Some n).
  Proof.
    intros Hl Hf Hinj. unfold fan_each, one_links. assert (H : forall l, (forall i, In i l -> i < N) -> forall m, frame n m ->
      fold_opt (fun m i => fan_out m (f i) [g i]) l (Some m) = fold_opt link_at (map (fun i => (f i, 0, g i, 0)) l) (Some m)).
    { induction l as [|i l IH]; intros Hin m Hfr; [reflexivity|]. unfold fold_opt in *. cbn [map fold_left bind].
      assert (Hi : i < N) by (apply Hin; left; reflexivity).
      assert (Hfit : fits m (f i, 0, g i, 0)). { apply (fits_frame n m); [exact Hfr|]. rewrite Forall_forall in Hf. apply Hf. apply one_in. exists i. auto. }
      destruct (link_one m (f i) 0 (g i) 0 Hfit) as (m' & E & F & _). unfold fan_out. destruct Hfr as (A1 & A2 & A3 & A4 & A5 & A6). rewrite A5, (Hl i Hi). cbn [length Nat.eqb].
      cbn [seq combine map fst snd]. unfold fold_opt. cbn [fold_left bind]. rewrite E. apply IH; [intros j Hj; apply Hin; right; exact Hj|].
      apply (frame_trans n m m'); [repeat split; assumption | exact F]. }
    apply H; [intros i Hi; apply in_seq in Hi; lia | apply frame_refl].
  Qed.
  (** the lengths that the options of the stages give *)
  Definition sized (n : net) : Prop := forall s, valid s -> length (inc n s) = length (new_inc N s) /\ length (out n s) = length (new_out N s) /\ length (nerr n s) = length (new_out N s).
  Lemma sized_frame n n' : frame n n' -> sized n -> sized n'.
  Proof. intros (A1 & A2 & A3 & A4 & A5 & A6) H s Hs. destruct (H s Hs) as (B1 & B2 & B3). rewrite A1, A5, A6. auto. Qed.
  Lemma sized_fits n p o t i : sized n -> db_link p o t i -> fits n (p, o, t, i).
  Proof.
    intros H L. unfold fits. destruct p as [|a|a|a| | |a|a|a|a|a|a|a|a|a]; cbn in L; try contradiction.
    - destruct (H DSrc I) as (_ & B2 & B3). rewrite B2, B3. cbn [new_out]. rewrite repeat_length. destruct L as [(A & -> & ->)|(j & A & -> & -> & ->)].
      + destruct (H (Batcher o) A) as (B1 & _). rewrite B1. cbn. lia.
      + destruct (H (Extractor j) A) as (B1 & _). rewrite B1. cbn. lia.
    - destruct L as (A & -> & -> & ->). destruct (H (Batcher a) A) as (_ & B2 & B3). destruct (H (CertCsv a) A) as (B1 & _). rewrite B1, B2, B3. cbn. lia.
    - destruct L as (A & Ho & -> & ->). destruct (H (Extractor a) A) as (_ & B2 & B3). destruct (H (DomBatcher o) Ho) as (B1 & _). rewrite B1, B2, B3. cbn [new_out new_inc]. rewrite !repeat_length. lia.
    - destruct L as (A & -> & -> & ->). destruct (H (CertCsv a) A) as (_ & B2 & B3). destruct (H (CertIns a) A) as (B1 & _). rewrite B1, B2, B3. cbn. lia.
    - destruct L as (A & -> & -> & ->). destruct (H (CertIns a) A) as (_ & B2 & B3). destruct (H (CertRem a) A) as (B1 & _). rewrite B1, B2, B3. cbn. lia.
    - destruct L as (A & -> & -> & ->). destruct (H (DomBatcher a) A) as (_ & B2 & B3). destruct (H (DomCsv a) A) as (B1 & _). rewrite B1, B2, B3. cbn. lia.
    - destruct L as (A & -> & -> & ->). destruct (H (DomCsv a) A) as (_ & B2 & B3). destruct (H (DomIns a) A) as (B1 & _). rewrite B1, B2, B3. cbn. lia.
    - destruct L as (A & -> & -> & ->). destruct (H (DomIns a) A) as (_ & B2 & B3). destruct (H (DomRem a) A) as (B1 & _). rewrite B1, B2, B3. cbn. lia.
  Qed.
  Lemma sub_ok n l : sized n -> incl l all_links -> exists n', fold_opt link_at l (Some n) = Some n' /\ frame n n'.
  Proof.
    intros H Hl. destruct (links_ok l n) as (n' & E & F & _).
    - apply Forall_forall. intros [[[p o] t] i] Hq. apply sized_fits; [exact H|]. apply all_in, Hl, Hq.
    - intros p o t i t' i' H1 H2. apply (db_link_functional p o); apply all_in, Hl; assumption.
    - exists n'. auto.
  Qed.
  Ltac incl_tac := let x := fresh in let Hx := fresh in intros x Hx; unfold all_links; rewrite !in_app_iff; tauto.
  Ltac fan := match goal with |- context [fan_each N ?f ?g (Some ?m)] => rewrite (fan_each_links f g m);
    [| let i := fresh in intros i ?; match goal with Hz : sized m |- _ => destruct (Hz (f i)) as (_ & Z & _); [assumption|]; exact Z end
     | apply Forall_forall; intros [[[? ?] ?] ?] Hq; match goal with Hz : sized m |- _ => apply (sized_fits m); [exact Hz|] end; apply all_in; unfold all_links; rewrite !in_app_iff; tauto
     | intros ? ? E; injection E; auto] end.
  Lemma db_links_eq n : sized n -> link_db N n = fold_opt link_at all_links (Some n).
  Proof.
    intros H. unfold link_db, all_links. rewrite !fold_opt_app.
    destruct (sub_ok n (source_links N) H) as (n1 & E1 & F1); [incl_tac|]. rewrite E1. pose proof (sized_frame _ _ F1 H) as H1.
    fan. destruct (sub_ok n1 (one_links Batcher CertCsv) H1) as (n2 & E2 & F2); [incl_tac|]. rewrite E2. pose proof (sized_frame _ _ F2 H1) as H2.
    fan. destruct (sub_ok n2 (one_links CertCsv CertIns) H2) as (n3 & E3 & F3); [incl_tac|]. rewrite E3. pose proof (sized_frame _ _ F3 H2) as H3.
    fan. destruct (sub_ok n3 (one_links CertIns CertRem) H3) as (n4 & E4 & F4); [incl_tac|]. rewrite E4. pose proof (sized_frame _ _ F4 H3) as H4.
    destruct (sub_ok n4 (domain_links N) H4) as (n5 & E5 & F5); [incl_tac|]. rewrite E5. pose proof (sized_frame _ _ F5 H4) as H5.
    fan. destruct (sub_ok n5 (one_links DomBatcher DomCsv) H5) as (n6 & E6 & F6); [incl_tac|]. rewrite E6. pose proof (sized_frame _ _ F6 H5) as H6.
    fan. destruct (sub_ok n6 (one_links DomCsv DomIns) H6) as (n7 & E7 & F7); [incl_tac|]. rewrite E7. pose proof (sized_frame _ _ F7 H6) as H7.
    fan. reflexivity.
  Qed.
  Lemma db_ok n : sized n -> exists n', link_db N n = Some n' /\ frame n n' /\
    (forall p o t i, db_link p o t i -> nth_error (out n' p) o = nth_error (inc n t) i /\ nth_error (nerr n' p) o = Some (err n t)) /\
    forall s, (forall k t i, ~ db_link s k t i) -> out n' s = out n s /\ nerr n' s = nerr n s.
  Proof.
    intros H. rewrite (db_links_eq n H). destruct (links_ok all_links n) as (n' & E & F & A & B).
    - apply Forall_forall. intros [[[p o] t] i] Hq. apply sized_fits; [exact H|]. apply all_in, Hq.
    - intros p o t i t' i' H1 H2. apply (db_link_functional p o); apply all_in; assumption.
    - exists n'. split; [exact E|]. split; [exact F|]. split; [intros p o t i L; apply A, all_in, L|].
      intros s Hs. assert (Hk : forall k, ~ In (s, k) (keys all_links)) by (intros k Hk; apply keys_in in Hk as (t & i & Hq); apply all_in in Hq; exact (Hs k t i Hq)).
      split; apply nth_ext_err; intros k; apply (B s k (Hk k)).
  Qed.
End Closed.
