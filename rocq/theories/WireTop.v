(** The whole wiring in closed form, and what follows from it. *)
From Verif Require Import Base BaseLemmas WireModel WireProofs.

Lemma fold_map {A B D} (f : A -> B -> A) (h : D -> B) l a : fold_left f (map h l) a = fold_left (fun x d => f x (h d)) l a.
Proof. revert a. induction l as [|d l IH]; intros a; [reflexivity | exact (IH (f a (h d)))]. Qed.
Definition idx (s : sid) : nat := match s with Dechain i => i | _ => 0 end.
Lemma combine_idx k : combine (seq 0 k) (each Dechain k) = map (fun s => (idx s, s)) (each Dechain k).
Proof. unfold each. generalize (seq 0 k). induction l as [|i l IH]; [reflexivity|]. cbn. rewrite IH. reflexivity. Qed.

Section Final.
  Variable S W C N : nat.
  Notation valid := (valid S W C N).
  Notation live := (live S W C N).
  Notation db_link := (db_link N).

  Definition fin_inc (s : sid) : list (option chan) :=
    match s with
    | Split _ => [Some (CShared 0)] | Parse _ => [Some (CShared 1)] | Dechain _ => [Some (CShared 2)] | FSink => [Some (CShared 3)]
    | DomBatcher _ => map (fun k => Some (CIn s k)) (seq 0 N)
    | _ => [Some (CIn s 0)]
    end.
  Definition fin_out (s : sid) : list (option chan) :=
    match s with
    | FSrc => [Some (CShared 0)] | Split _ => [Some (CShared 1)] | Parse _ => [Some (CShared 2)] | Dechain i => [Some (CNewData i)] | FSink => [None]
    | DSrc => map (fun i => Some (CIn (Batcher i) 0)) (seq 0 N) ++ map (fun i => Some (CIn (Extractor i) 0)) (seq 0 N)
    | Batcher i => [Some (CIn (CertCsv i) 0)] | CertCsv i => [Some (CIn (CertIns i) 0)] | CertIns i => [Some (CIn (CertRem i) 0)]
    | Extractor i => map (fun j => Some (CIn (DomBatcher j) i)) (seq 0 N)
    | DomBatcher i => [Some (CIn (DomCsv i) 0)] | DomCsv i => [Some (CIn (DomIns i) 0)] | DomIns i => [Some (CIn (DomRem i) 0)]
    | CertRem _ | DomRem _ => [Some (CDrain s)]
    end.
  Definition fin_nerr (s : sid) : list (option chan) :=
    match s with
    | FSrc | Split _ | Parse _ => [Some (CBack s)] | Dechain i => [Some (CNewErr i)] | FSink => [None]
    | DSrc => map (fun i => Some (CErr (Batcher i))) (seq 0 N) ++ map (fun i => Some (CErr (Extractor i))) (seq 0 N)
    | Batcher i => [Some (CErr (CertCsv i))] | CertCsv i => [Some (CErr (CertIns i))] | CertIns i => [Some (CErr (CertRem i))]
    | Extractor i => map (fun j => Some (CErr (DomBatcher j))) (seq 0 N)
    | DomBatcher i => [Some (CErr (DomCsv i))] | DomCsv i => [Some (CErr (DomIns i))] | DomIns i => [Some (CErr (DomRem i))]
    | CertRem _ | DomRem _ => [Some (CDrainErr s)]
    end.
  Definition fin_close (s : sid) : closer :=
    match s with FSrc => CloseShared 0 1 | Split _ => CloseShared 1 S | Parse _ => CloseShared 2 W | _ => CloseOwn end.
  Definition fin (s : sid) : cell := mk_cell (fin_inc s) (fin_out s) (fin_nerr s) (Some (CErr s)) (fin_close s).
  Definition errs : list chan := map CNewErr (seq 0 C).
  Definition chans : list chan := map CNewData (seq 0 C).
  Definition fin_gos : list gor :=
    flat_map prep_gos (joined S W C N) ++ file_gos S W C ++ map (fun c => GErr c errs) (fin_nerr DSrc) ++ [GErrClose (fin_nerr DSrc) errs] ++
    map (fun c => GFwd c (fin_out DSrc)) chans ++ [GFwdClose chans (fin_out DSrc)].

  Lemma new_cell s : view (new_net N) s = mk_cell (new_inc N s) (new_out N s) [] None CloseOwn. Proof. reflexivity. Qed.
  Lemma nth_map_seq {A} (f : nat -> A) k o : o < k -> nth_error (map f (seq 0 k)) o = Some (f o).
  Proof. intros H. rewrite nth_error_map, (nth_error_nth' (seq 0 k) 0) by (rewrite seq_length; exact H). cbn. rewrite seq_nth by exact H. reflexivity. Qed.
  Lemma nth_ext_len {A} (l1 l2 : list A) : length l1 = length l2 -> (forall i, i < length l2 -> nth_error l1 i = nth_error l2 i) -> l1 = l2.
  Proof.
    intros Hl H. apply nth_ext_err. intros i. destruct (Nat.lt_ge_cases i (length l2)) as [Hi|Hi]; [exact (H i Hi)|].
    rewrite (proj2 (nth_error_None l1 i)) by lia. rewrite (proj2 (nth_error_None l2 i)) by lia. reflexivity.
  Qed.

  (** before the halves are joined *)
  Definition mid_out (s : sid) := match s with Dechain _ => [Some (CShared 3)] | _ => fin_out s end.
  Definition mid_nerr (s : sid) := match s with Dechain _ => [Some (CBack s)] | _ => fin_nerr s end.
  Definition mid_close (s : sid) := match s with Dechain _ => CloseShared 3 C | _ => fin_close s end.
  Definition mid (s : sid) : cell := mk_cell (fin_inc s) (mid_out s) (mid_nerr s) (Some (CErr s)) (mid_close s).
  Lemma seq_map_repeat (s : sid) k : length (map (fun i => Some (CIn s i)) (seq 0 (length (@repeat (option chan) None k)))) = k.
  Proof. rewrite map_length, seq_length, repeat_length. reflexivity. Qed.
  Lemma mid_ok : exists n, link_files S W C (n_prep S W C N) = Some n /\ exists n', link_db N n = Some n' /\
    gos n' = flat_map prep_gos (joined S W C N) ++ file_gos S W C /\ forall s, valid s -> view n' s = mid s.
  Proof.
    destruct (files_ok S W C N (n_prep S W C N)) as (n & E & G & V).
    { intros s Hs. rewrite view_out, view_inc, (prep_view S W C N s Hs), new_cell. destruct s; cbn; auto. }
    exists n. split; [exact E|].
    assert (V2 : forall s, valid s -> view n s = file_cell S W C s (view (n_prep S W C N) s)) by exact V.
    assert (Hz : sized S W C N n).
    { intros s Hs. assert (Hn : nerr n s = v_nerr (view n s)) by reflexivity. rewrite view_out, view_inc, Hn, (V s Hs), (prep_view S W C N s Hs), new_cell.
      destruct s; cbn [is_source is_sink sid_dec file_cell g_prev g_next g_prep g_full v_inc v_out v_nerr v_err v_close new_inc new_out]; cbn [set_nth map seq length repeat];
        try (destruct (sid_dec _ FSink); try discriminate); cbn; rewrite ?map_length, ?seq_length, ?repeat_length; auto. }
    destruct (db_ok S W C N n Hz) as (n' & E' & (F1 & F2 & F3 & F4 & F5 & F6) & L & R). exists n'. split; [exact E'|].
    split; [rewrite F4, G, prep_gos_list; reflexivity|].
    assert (Hinc : forall s, valid s -> inc n s = fin_inc s).
    { intros s Hs. rewrite view_inc, (V s Hs), (prep_view S W C N s Hs), new_cell. destruct s; try reflexivity.
      cbn [is_source is_sink file_cell g_prep v_inc new_inc]. rewrite repeat_length. reflexivity. }
    assert (Herr : forall s, valid s -> err n s = Some (CErr s)).
    { intros s Hs. assert (Hn : err n s = v_err (view n s)) by reflexivity. rewrite Hn, (V s Hs), (prep_view S W C N s Hs), new_cell. destruct s; reflexivity. }
    intros s Hs. assert (Ht : (forall k t i, ~ db_link s k t i) -> view n' s = view n s).
    { intros H. destruct (R s H) as [A B]. unfold view. rewrite F1, F2, F3, A, B. reflexivity. }
    assert (Hc : close_of n s = mid_close s). { assert (Hn : close_of n s = v_close (view n s)) by reflexivity. rewrite Hn, (V s Hs), (prep_view S W C N s Hs), new_cell. destruct s; reflexivity. }
    assert (Hb : view n' s = mk_cell (fin_inc s) (out n' s) (nerr n' s) (Some (CErr s)) (mid_close s)).
    { unfold view. rewrite F1, F2, F3, (Hinc s Hs), (Herr s Hs), Hc. reflexivity. }
    destruct (Hz s Hs) as (_ & Lo & Ln).
    assert (One : forall t, valid t -> new_out N s = [None] -> (forall o t' i, db_link s o t' i <-> o = 0 /\ t' = t /\ i = 0) -> fin_inc t = [Some (CIn t 0)] -> out n' s = [Some (CIn t 0)] /\ nerr n' s = [Some (CErr t)]).
    { intros t Hvt E1 E2 E3. destruct (L s 0 t 0) as [A B]; [apply E2; auto|]. rewrite (Hinc t Hvt), E3 in A. rewrite (Herr t Hvt) in B. cbn in A.
      rewrite <- F5, E1 in Lo. rewrite <- F6, E1 in Ln. destruct (out n' s) as [|x [|y r]]; try discriminate Lo. destruct (nerr n' s) as [|x' [|y' r']]; try discriminate Ln.
      cbn in A, B. injection A as ->. injection B as ->. auto. }
    destruct s as [|i|i|i| | |i|i|i|i|i|i|i|i|i]; cbn in Hs;
      try (rewrite Ht by (intros; cbn; tauto); match goal with |- view n ?s = _ => rewrite (V s Hs), (prep_view S W C N s Hs), new_cell end; reflexivity).
    - rewrite Hb. cbn [mid mid_out mid_nerr fin_out fin_nerr fin_inc mid_close fin_close]. unfold mid. cbn [fin_inc mid_out mid_nerr mid_close fin_close].
      assert (Hlen : forall f g : nat -> option chan, length (map f (seq 0 N) ++ map g (seq 0 N)) = 2 * N) by (intros; rewrite app_length, !map_length, !seq_length; lia).
      f_equal; cbn [fin_out fin_nerr]; apply nth_ext_len; try (rewrite Hlen; rewrite ?F5, ?F6, ?Lo, ?Ln; cbn [new_out]; rewrite repeat_length; reflexivity).
      + rewrite Hlen. intros o Ho. destruct (Nat.lt_ge_cases o N) as [H1|H1].
        * destruct (L DSrc o (Batcher o) 0) as [A _]; [left; auto|]. rewrite A, (Hinc (Batcher o) H1). rewrite nth_error_app1 by (rewrite map_length, seq_length; exact H1). rewrite nth_map_seq by exact H1. reflexivity.
        * assert (H2 : o - N < N) by lia. destruct (L DSrc o (Extractor (o - N)) 0) as [A _]; [right; exists (o - N); repeat split; lia|]. rewrite A, (Hinc (Extractor (o - N)) H2).
          rewrite nth_error_app2 by (rewrite map_length, seq_length; exact H1). rewrite map_length, seq_length. rewrite nth_map_seq by exact H2. reflexivity.
      + rewrite Hlen. intros o Ho. destruct (Nat.lt_ge_cases o N) as [H1|H1].
        * destruct (L DSrc o (Batcher o) 0) as [_ B]; [left; auto|]. rewrite B, (Herr (Batcher o) H1). rewrite nth_error_app1 by (rewrite map_length, seq_length; exact H1). rewrite nth_map_seq by exact H1. reflexivity.
        * assert (H2 : o - N < N) by lia. destruct (L DSrc o (Extractor (o - N)) 0) as [_ B]; [right; exists (o - N); repeat split; lia|]. rewrite B, (Herr (Extractor (o - N)) H2).
          rewrite nth_error_app2 by (rewrite map_length, seq_length; exact H1). rewrite map_length, seq_length. rewrite nth_map_seq by exact H2. reflexivity.
    - rewrite Hb. destruct (One (CertCsv i) Hs eq_refl) as [-> ->]; [cbn; intuition | reflexivity | reflexivity].
    - rewrite Hb. unfold mid. cbn [fin_inc mid_out mid_nerr mid_close fin_close fin_out fin_nerr]. f_equal; apply nth_ext_len;
        try (rewrite map_length, seq_length; rewrite ?F5, ?F6, ?Lo, ?Ln; cbn [new_out]; rewrite repeat_length; reflexivity); rewrite map_length, seq_length; intros o Ho;
        destruct (L (Extractor i) o (DomBatcher o) i) as [A B]; try (cbn; auto); rewrite nth_map_seq by exact Ho.
      + rewrite A, (Hinc (DomBatcher o) Ho). cbn [fin_inc]. rewrite nth_map_seq by exact Hs. reflexivity.
      + rewrite B, (Herr (DomBatcher o) Ho). reflexivity.
    - rewrite Hb. destruct (One (CertIns i) Hs eq_refl) as [-> ->]; [cbn; intuition | reflexivity | reflexivity].
    - rewrite Hb. destruct (One (CertRem i) Hs eq_refl) as [-> ->]; [cbn; intuition | reflexivity | reflexivity].
    - rewrite Hb. destruct (One (DomCsv i) Hs eq_refl) as [-> ->]; [cbn; intuition | reflexivity | reflexivity].
    - rewrite Hb. destruct (One (DomIns i) Hs eq_refl) as [-> ->]; [cbn; intuition | reflexivity | reflexivity].
    - rewrite Hb. destruct (One (DomRem i) Hs eq_refl) as [-> ->]; [cbn; intuition | reflexivity | reflexivity].
  Qed.

  Definition g_join1 (s : sid) (v : cell) : cell := mk_cell (v_inc v) (v_out v) (set_nth 0 (Some (CNewErr (idx s))) (v_nerr v)) (v_err v) (v_close v).
  Definition g_join2 (s : sid) (v : cell) : cell := mk_cell (v_inc v) (set_nth 0 (Some (CNewData (idx s))) (v_out v)) (v_nerr v) (v_err v) CloseOwn.
  Lemma flat_one {A B} (f : A -> B) l : flat_map (fun x => [f x]) l = map f l. Proof. induction l as [|x l IH]; [reflexivity|]. cbn. rewrite IH. reflexivity. Qed.
  Lemma flat_none {A B} (l : list A) : flat_map (fun _ => @nil B) l = []. Proof. induction l; cbn; auto. Qed.
  Lemma new_link_ok : exists n, new_link S W C N (n_prep S W C N) = Some n /\ gos n = fin_gos /\ forall s, valid s -> view n s = fin s.
  Proof.
    destruct mid_ok as (n1 & E1 & n2 & E2 & G2 & V2). unfold new_link. rewrite E1. cbn [bind]. rewrite E2. cbn [bind]. rewrite to_certs_list, each_length, Nat.eqb_refl.
    assert (Hd : view n2 DSrc = mid DSrc) by (apply V2; exact I).
    assert (Ho : out n2 DSrc = fin_out DSrc) by (rewrite view_out, Hd; reflexivity).
    assert (Hl : (length (out n2 DSrc) =? 2 * N) = true) by (apply Nat.eqb_eq; rewrite Ho; cbn [fin_out]; rewrite app_length, !map_length, !seq_length; lia). rewrite Hl.
    cbn [andb]. rewrite combine_idx.
    set (n3 := fold_left _ (map (fun s => (idx s, s)) (each Dechain C)) n2).
    assert (V3 : forall s, view n3 s = if in_dec sid_dec s (each Dechain C) then g_join1 s (view n2 s) else view n2 s).
    { unfold n3. rewrite fold_map. cbn [fst snd]. apply (fold_view _ g_join1).
      - intros m s t H. unfold view. cbn. rewrite upd_other by exact H. reflexivity.
      - intros m s. unfold view. cbn. rewrite upd_same. reflexivity.
      - intros s v. unfold g_join1. cbn [v_inc v_out v_nerr v_err v_close]. rewrite set_twice. reflexivity. }
    assert (D3 : view n3 DSrc = mid DSrc). { rewrite V3, <- Hd. destruct (in_dec sid_dec DSrc (each Dechain C)) as [H|H]; [apply in_each in H as (i & _ & H); discriminate H | reflexivity]. }
    assert (G3 : gos n3 = gos n2). { unfold n3. rewrite fold_map, (fold_gos _ (fun _ => [])) by (intros; cbn; rewrite app_nil_r; reflexivity). rewrite flat_none, app_nil_r. reflexivity. }
    assert (Hn : nerr n3 DSrc = fin_nerr DSrc) by (change (nerr n3 DSrc) with (v_nerr (view n3 DSrc)); rewrite D3; reflexivity). rewrite Hn.
    set (n4 := fold_left (fun m c => spawn m (GErr c (map CNewErr (seq 0 C)))) (fin_nerr DSrc) n3).
    assert (V4 : forall s, view n4 s = view n3 s) by (intros s; apply fold_view_same; reflexivity).
    assert (G4 : gos n4 = gos n3 ++ map (fun c => GErr c errs) (fin_nerr DSrc)). { unfold n4. rewrite (fold_gos _ (fun c => [GErr c errs])) by reflexivity. rewrite flat_one. reflexivity. }
    assert (Hn4 : nerr n4 DSrc = fin_nerr DSrc) by (change (nerr n4 DSrc) with (v_nerr (view n4 DSrc)); rewrite V4, D3; reflexivity). rewrite Hn4.
    set (n5 := spawn n4 _). set (n6 := fold_left _ (map (fun s => (idx s, s)) (each Dechain C)) n5).
    assert (V6 : forall s, view n6 s = if in_dec sid_dec s (each Dechain C) then g_join2 s (view n3 s) else view n3 s).
    { intros s. rewrite <- (V4 s). unfold n6. rewrite fold_map. cbn [fst snd]. change (view n4 s) with (view n5 s). apply (fold_view _ g_join2).
      - intros m a t H. unfold view. cbn. rewrite !upd_other by exact H. reflexivity.
      - intros m a. unfold view. cbn. rewrite !upd_same. reflexivity.
      - intros a v. unfold g_join2. cbn [v_inc v_out v_nerr v_err v_close]. rewrite set_twice. reflexivity. }
    assert (D6 : view n6 DSrc = mid DSrc). { rewrite V6, D3. destruct (in_dec sid_dec DSrc (each Dechain C)) as [H|H]; [apply in_each in H as (i & _ & H); discriminate H | reflexivity]. }
    assert (Ho6 : out n6 DSrc = fin_out DSrc) by (rewrite view_out, D6; reflexivity). rewrite Ho6.
    set (n7 := fold_left (fun m c => spawn m (GFwd c (fin_out DSrc))) (map CNewData (seq 0 C)) n6).
    assert (V7 : forall s, view n7 s = view n6 s) by (intros s; apply fold_view_same; reflexivity).
    assert (Ho7 : out n7 DSrc = fin_out DSrc) by (rewrite view_out, V7, D6; reflexivity). rewrite Ho7.
    eexists. split; [reflexivity|]. split.
    - unfold spawn at 1. cbn [gos]. unfold n7. rewrite (fold_gos _ (fun c => [GFwd c (fin_out DSrc)])) by reflexivity. rewrite flat_one.
      unfold n6. rewrite fold_map, (fold_gos _ (fun _ => [])) by (intros; cbn; rewrite app_nil_r; reflexivity). rewrite flat_none, app_nil_r.
      unfold n5. cbn [gos spawn]. rewrite G4, G3, G2. unfold fin_gos. fold errs. fold chans. rewrite <- !app_assoc. reflexivity.
    - intros s Hs. rewrite view_spawn, V7, V6, V3, (V2 s Hs).
      destruct (in_dec sid_dec s (each Dechain C)) as [H|H]; rewrite in_each in H.
      + destruct H as (i & Hi & ->). reflexivity.
      + destruct s as [|i|i|i| | |i|i|i|i|i|i|i|i|i]; try reflexivity. exfalso. apply H. exists i. auto.
  Qed.

  Record wired (n : net) : Prop := {
    w_inc : forall s, valid s -> inc n s = fin_inc s;
    w_out : forall s, valid s -> out n s = fin_out s;
    w_nerr : forall s, valid s -> nerr n s = fin_nerr s;
    w_err : forall s, valid s -> err n s = Some (CErr s);
    w_close : forall s, valid s -> close_of n s = fin_close s;
    w_gos : gos n = fin_gos }.
  Lemma check_file : check (file_stages S W C) = Some (FSrc, FSink).
  Proof.
    unfold check, file_stages. cbn [app find is_source bind is_sink].
    assert (H : forall f k l, (forall i, is_sink (f i) = false) -> find is_sink (each f k ++ l) = find is_sink l).
    { intros f k l H. unfold each. generalize (seq 0 k). induction l0 as [|i l0 IH]; [reflexivity|]. cbn [map app find]. rewrite H. exact IH. }
    rewrite !H by reflexivity. reflexivity.
  Qed.
  Lemma check_db : check (db_stages N) = if N =? 0 then None else Some (DSrc, CertRem 0).
  Proof.
    unfold check, db_stages. cbn [app find is_source bind is_sink].
    assert (H : forall f k l, (forall i, is_sink (f i) = false) -> find is_sink (each f k ++ l) = find is_sink l).
    { intros f k l H. unfold each. generalize (seq 0 k). induction l0 as [|i l0 IH]; [reflexivity|]. cbn [map app find]. rewrite H. exact IH. }
    rewrite !H by reflexivity. destruct N; reflexivity.
  Qed.
  Theorem resume_wired : 0 < N -> exists n, processor_resume S W C N = Wired n /\ wired n.
  Proof.
    intros HN. unfold processor_resume. rewrite check_file, check_db. destruct (Nat.eqb_spec N 0) as [->|_]; [lia|].
    destruct new_link_ok as (n & E & G & V). unfold n_prep in E. rewrite E. exists n. split; [reflexivity|].
    constructor; try (intros s Hs; pose proof (V s Hs) as X; unfold view, fin in X; injection X; auto). exact G.
  Qed.
  Theorem resume_refused : N = 0 -> processor_resume S W C N = Refused.
  Proof. intros H. unfold processor_resume. rewrite check_db, H. reflexivity. Qed.
End Final.
