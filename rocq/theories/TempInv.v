(** The invariant of TempProofs holds in every run of TempModel. *)
From Verif Require Import Base BaseLemmas SysModel SysProofs LoadModel TempModel TempBuf TempProofs TempSteps.

Lemma firstn_next {A} (l : list A) n d : n < length l -> firstn (S n) l = firstn n l ++ [nth n l d].
Proof. revert n. induction l as [|x l IH]; intros [|n] H; cbn in *; try lia; [reflexivity|]. f_equal. apply IH. lia. Qed.

Section Temp.
  Variable cap ring : nat.
  Variable kinds : nat -> list bytes.
  Variable skips : nat -> bool.
  Variable work : nat -> list batch.
  Hypothesis Hring : 3 <= ring.
  Hypothesis Hkinds : forall i, kinds i <> [].
  Hypothesis Hprefix : forall i p, In p (kinds i) -> p <> [] /\ ~ In x00 p /\ length p + random_count + length suffix < cap.

  Notation K i := (length (kinds i)).
  Notation bat i n := (nth n (batches skips i (work i)) []).
  Notation text i n j := (raw_file (rows_of (bat i n) j)).
  Notation nm := (name ring kinds).
  Notation bf := (buf ring).
  Notation step := (sys_step ring kinds skips).
  Notation Inv := (inv cap ring kinds skips work).
  Notation Lok := (line_ok cap ring kinds skips work).
  Notation Tok := (token kinds).
  Notation Now := (content_now skips work).
  Notation put s i l' fs' ino' op' := (set_line (set_os s fs' ino' op') i l').
  Notation pass := (inv_pass cap ring kinds skips work Hring).

  Lemma keep_send s i n : Inv s -> cr (lines s i) = CSend n -> ins (lines s i) = IIdle ->
    Inv (set_line s i (set_ins (set_cr (lines s i) CIdle) (IChmod n 0))).
  Proof.
    intros I Ec Ei. pose proof (proj1 (proj2 I) i) as Li. pose proof (kinds_pos ring kinds Hring Hkinds i) as K0. set (l := lines s i) in *. set (l' := set_ins _ _).
    destruct Li as (Pc & Pi & Pr & Pt & Lo & (B & Hf)). unfold pos_cr in Pc. rewrite Ec in Pc.
    assert (E1 : handed_c l = n) by (unfold handed_c; rewrite Ec, Pc; reflexivity).
    assert (E2 : handed_c l' = S n) by (unfold handed_c, l'; cbn [cr set_ins set_cr made]; exact Pc).
    assert (E3 : handed_i l' = handed_i l) by (unfold handed_i at 1; rewrite E2; unfold handed_i; rewrite Ei, E1; reflexivity).
    assert (TT : forall m j, Tok i l' m j <-> Tok i l m j).
    { intros m j. unfold token, tok_cr, tok_ins, tok_rem, l'. cbn [cr ins rem set_ins set_cr]. rewrite Ec, Ei. tauto. }
    apply pass; auto; fold l.
    - split; [exact Logic.I|]. split; [split; [exact E2 | exact K0]|]. split; [unfold pos_rem in *; rewrite E3; exact Pr|]. split; [exact Pt|].
      split; [|split; [exact B | exact Logic.I]]. unfold loaded_ok in *. rewrite E3. unfold in_load in *. rewrite Ei in Lo. exact Lo.
    - intros m j X. apply TT. exact X.
    - intros m j X. left. apply TT. exact X.
    - intros m j w _ W. unfold content_now in *. rewrite Ec in W. exact W.
    - unfold failed. rewrite Ec, Ei. auto.
    - right. split; [unfold has_fd; rewrite Ec; auto|]. split; [auto|]. unfold is_cfail. rewrite Ec. auto.
  Qed.

  Lemma make_keeps s i c s' : Inv s -> make_step ring kinds skips s i c = Some s' -> Inv s'.
  Proof.
    intros I E. destruct (cr (lines s i)) eqn:Ec.
    - unfold make_step in E. rewrite Ec in E. destruct (todo (lines s i)) as [|b rest] eqn:Et; [discriminate E|].
      destruct (skips i && empty_batch b) eqn:Es; injection E as <-.
      + apply (keep_skip cap ring kinds skips work Hring s i b rest); assumption.
      + apply (keep_first cap ring kinds skips work Hring Hkinds Hprefix s i b rest); assumption.
    - eapply keep_try; eassumption.
    - eapply keep_close1; eassumption.
    - eapply keep_open; eassumption.
    - eapply keep_write; eassumption.
    - unfold make_step in E. rewrite Ec in E. destruct (ins (lines s i)) eqn:Ei; try discriminate E. injection E as <-. apply keep_send; assumption.
    - unfold make_step in E. rewrite Ec in E. discriminate E.
  Qed.

  (** The file of a batch that the inserting stage has. *)
  Lemma ins_file s i n j : Inv s -> tok_ins (lines s i) n -> j < K i ->
    exists f, lookup (nm i (lines s i) n j) (fs s) = Some f /\ nth f (ino s) [] = text i n j.
  Proof.
    intros I H Hj. pose proof (proj1 (proj2 I) i) as Li. assert (X : Tok i (lines s i) n j) by (split; [exact Hj|]; right; left; exact H).
    destruct I as (_ & _ & _ & T & _). destruct (T i n j X) as (_ & f & Lf & W). exists f. split; [exact Lf|].
    apply (now_after cap ring kinds skips work Hring i (lines s i) n j _ Li); auto.
  Qed.

  (** A step of the inserting stage inside a batch. *)
  Lemma keep_ins s i x ld : Inv s ->
    let l := lines s i in let l' := mk_line (todo l) (made l) (cr l) x (rem l) (bufs l) ld in
    ins l <> IIdle -> x <> IIdle -> pos_ins kinds i l' -> loaded_ok kinds skips work i l' ->
    ((forall n, tok_ins l' n <-> tok_ins l n) \/ ((forall n, ~ tok_ins l' n) /\ failed l' = true)) ->
    (failed l = true -> failed l' = true) -> Inv (set_line s i l').
  Proof.
    intros I l l' N1 N2 Hp Hlo Ht Hf. pose proof (proj1 (proj2 I) i) as Li. fold l in Li. destruct Li as (Pc & Pi & Pr & Pt & Lo & (B & Hfo)).
    assert (E3 : handed_i l' = handed_i l).
    { unfold handed_i. change (ins l') with x. change (handed_c l') with (handed_c l). destruct (ins l), x; try contradiction; reflexivity. }
    assert (TT : forall m j, Tok i l' m j -> Tok i l m j).
    { intros m j (A & H). split; [exact A|]. destruct H as [H|[H|H]]; auto. destruct Ht as [Ht|[Ht _]]; [right; left; apply Ht; exact H | exfalso; exact (Ht m H)]. }
    apply pass; auto; fold l.
    - split; [exact Pc|]. split; [exact Hp|]. split; [unfold pos_rem in *; rewrite E3; exact Pr|]. split; [exact Pt|]. split; [exact Hlo|]. split; [exact B | exact Hfo].
    - intros m j (A & H). destruct Ht as [Ht|[_ Ht]]; [|right; exact Ht]. left. split; [exact A|]. destruct H as [H|[H|H]]; auto. right. left. apply Ht. exact H.
  Qed.

  Lemma ins_keeps s i good s' : Inv s -> ins_step ring kinds s i good = Some s' -> Inv s'.
  Proof.
    intros I E. unfold ins_step in E. pose proof (proj1 (proj2 I) i) as Li. set (l := lines s i) in *.
    destruct Li as (Pc & Pi & Pr & Pt & Lo & Fo).
    destruct (ins l) as [|n j|n j|n|n j] eqn:Ei; [discriminate E| | | |discriminate E].
    - unfold pos_ins in Pi. rewrite Ei in Pi. destruct (ins_file s i n j I) as (f & Lf & _); [unfold tok_ins; fold l; rewrite Ei; reflexivity | apply Pi|].
      fold l in Lf. rewrite Lf in E. injection E as <-. apply (keep_ins s i _ (loaded l) I).
      + fold l. rewrite Ei. discriminate.
      + destruct good; discriminate.
      + destruct good; exact Pi.
      + unfold loaded_ok, handed_i, in_load in *. rewrite Ei in Lo. destruct good; exact Lo.
      + fold l. destruct good; [left; intros m; unfold tok_ins; cbn [ins]; rewrite Ei; reflexivity|].
        right. split; [intros m H; exact H|]. unfold failed. cbn [cr ins rem]. rewrite orb_true_r. reflexivity.
      + fold l. unfold failed. cbn [cr ins rem]. rewrite Ei. destruct good; [auto|]. intros _. rewrite orb_true_r. reflexivity.
    - unfold pos_ins in Pi. rewrite Ei in Pi. destruct (ins_file s i n j I) as (f & Lf & Wf); [unfold tok_ins; fold l; rewrite Ei; reflexivity | apply Pi|].
      fold l in Lf. rewrite Lf in E. destruct good; injection E as <-.
      + apply (keep_ins s i _ _ I).
        * fold l. rewrite Ei. discriminate.
        * destruct (S j <? K i); discriminate.
        * unfold pos_ins. cbn [ins]. destruct (S j <? K i) eqn:Ek; [apply Nat.ltb_lt in Ek; split; [apply Pi | exact Ek] | apply Pi].
        * unfold loaded_ok in *. cbn [loaded]. unfold handed_i, in_load in *. cbn [ins]. rewrite Ei in Lo. fold l. rewrite Lo, Wf, <- app_assoc.
          change (handed_c (mk_line (todo l) (made l) (cr l) (if S j <? K i then IChmod n (S j) else ISend n) (rem l) (bufs l)
                     (flat_map (expected kinds i) (firstn (Nat.pred (handed_c l)) (batches skips i (work i))) ++
                      map (fun j => (j, text i (Nat.pred (handed_c l)) j)) (seq 0 j) ++ [(j, text i n j)]))) with (handed_c l).
          destruct Pi as [P1 P2]. rewrite P1. cbn [Nat.pred].
          destruct (S j <? K i) eqn:Ek.
          -- f_equal. rewrite seq_S, map_app. reflexivity.
          -- apply Nat.ltb_ge in Ek. replace (K i) with (S j) by lia. f_equal. rewrite seq_S, map_app. reflexivity.
        * fold l. left. intros m. unfold tok_ins. cbn [ins]. rewrite Ei. destruct (S j <? K i); reflexivity.
        * fold l. unfold failed. cbn [cr ins rem]. rewrite Ei. destruct (S j <? K i); auto.
      + apply (keep_ins s i _ (loaded l) I).
        * fold l. rewrite Ei. discriminate.
        * discriminate.
        * exact Pi.
        * unfold loaded_ok, handed_i, in_load in *. rewrite Ei in Lo. exact Lo.
        * fold l. right. split; [intros m H; exact H|]. unfold failed. cbn [cr ins rem]. rewrite orb_true_r. reflexivity.
        * fold l. unfold failed. cbn [cr ins rem]. intros _. rewrite orb_true_r. reflexivity.
    - destruct (rem l) eqn:Er; try discriminate E. injection E as <-. unfold pos_ins in Pi. rewrite Ei in Pi. set (l' := set_rem _ _).
      pose proof (kinds_pos ring kinds Hring Hkinds i) as K0.
      assert (E1 : handed_i l = n) by (unfold handed_i; rewrite Ei, Pi; reflexivity).
      assert (E2 : handed_i l' = S n) by (unfold handed_i; cbn [ins l' set_rem set_ins]; exact Pi).
      assert (Hn : n < length (batches skips i (work i))).
      { pose proof (todo_len ring skips work Hring i l Pt) as A. unfold handed_c, pos_cr in *. destruct (cr l); intuition lia. }
      apply pass; auto; fold l.
      + split; [exact Pc|]. split; [exact Logic.I|]. split; [split; [exact E2 | exact K0]|]. split; [exact Pt|]. split; [|exact Fo].
        unfold loaded_ok in *. rewrite E2. change (in_load kinds i l') with 0. cbn [seq map]. rewrite app_nil_r. change (loaded l') with (loaded l). rewrite Lo, E1.
        pose proof (firstn_next (batches skips i (work i)) n [] Hn) as G. rewrite G, flat_map_app. f_equal. unfold in_load. rewrite Ei. cbn [flat_map]. rewrite app_nil_r. reflexivity.
      + intros m j (A & H). split; [exact A|]. unfold tok_cr, tok_ins, tok_rem, l' in *. cbn [cr ins rem set_rem set_ins] in *. rewrite Ei. destruct H as [H|[H|H]]; tauto.
      + intros m j (A & H). left. split; [exact A|]. unfold tok_cr, tok_ins, tok_rem, l' in *. cbn [cr ins rem set_rem set_ins] in *. rewrite Ei, Er in H.
        destruct H as [H|[H|H]]; [left; exact H | right; right; split; [exact H | lia] | contradiction].
      + unfold failed. cbn [cr ins rem l' set_rem set_ins]. rewrite Ei, Er. auto.
  Qed.

  Lemma rem_keeps s i good s' : Inv s -> rem_step ring kinds s i good = Some s' -> Inv s'.
  Proof.
    intros I E. unfold rem_step in E. pose proof (proj1 (proj2 I) i) as Li. pose proof (proj1 (proj2 (proj2 (proj2 I)))) as T. set (l := lines s i) in *.
    assert (Li' := Li). destruct Li as (Pc & Pi & Pr & Pt & Lo & Fo).
    destruct (rem l) as [|n j bad|] eqn:Er; try discriminate E. unfold pos_rem in Pr. rewrite Er in Pr. destruct Pr as [P1 P2].
    assert (X : Tok i l n j) by (split; [exact P2|]; right; right; unfold tok_rem; rewrite Er; split; [reflexivity | lia]).
    destruct (T i n j X) as (_ & f & Lf & _). fold l in Lf. rewrite Lf in E. injection E as <-.
    set (nxt := if S j <? K i then RDo n (S j) (bad || negb good) else if bad || negb good then RFail n else RIdle).
    change (Inv (set_line (if good then set_os s (unlink (nm i l n j) (fs s)) (ino s) (opened s) else s) i (set_rem l nxt))). set (l' := set_rem l nxt).
    assert (Not : forall m k, tok_cr l m k \/ tok_ins l m -> m <> n).
    { intros m k H ->. unfold handed_i, pos_ins in *. destruct H as [H|H].
      - unfold tok_cr, handed_c, pos_cr in *. destruct (cr l); try contradiction; destruct (ins l); intuition lia.
      - unfold tok_ins in H. destruct (ins l); try contradiction; subst; intuition lia. }
    assert (Tr : forall m k, k < K i -> tok_rem l' m k <-> (m = n /\ S j <= k)).
    { intros m k Hk. unfold tok_rem, l', nxt. cbn [rem set_rem]. destruct (S j <? K i) eqn:Ek; [reflexivity|]. apply Nat.ltb_ge in Ek.
      destruct (bad || negb good); split; try contradiction; intros [_ H]; lia. }
    assert (TT : forall m k, Tok i l' m k <-> Tok i l m k /\ ~ (m = n /\ k = j)).
    { intros m k. unfold token. split.
      - intros (A & H). change (tok_cr l' m k) with (tok_cr l m k) in H. change (tok_ins l' m) with (tok_ins l m) in H. rewrite (Tr m k A) in H.
        assert (G : tok_rem l m k \/ m <> n \/ k <> j).
        { destruct H as [H|[H|[H1 H2]]]; [right; left; apply (Not m k); auto | right; left; apply (Not m k); auto | right; right; lia]. }
        split; [split; [exact A|]|].
        + destruct H as [H|[H|[H1 H2]]]; auto. right. right. unfold tok_rem. rewrite Er. split; [exact H1 | lia].
        + intros [-> ->]. destruct H as [H|[H|[_ H]]]; [exact (Not n j (or_introl H) eq_refl) | exact (Not n j (or_intror H) eq_refl) | lia].
      - intros ((A & H) & N). split; [exact A|]. change (tok_cr l' m k) with (tok_cr l m k). change (tok_ins l' m) with (tok_ins l m). rewrite (Tr m k A).
        destruct H as [H|[H|H]]; auto. unfold tok_rem in H. rewrite Er in H. destruct H as [-> H]. right. right. split; [reflexivity|]. lia. }
    assert (Hl : Lok i l').
    { split; [exact Pc|]. split; [exact Pi|]. split; [|split; [exact Pt|split; [exact Lo | exact Fo]]].
      unfold pos_rem, l', nxt. cbn [rem set_rem]. change (handed_i (set_rem l nxt)) with (handed_i l).
      destruct (S j <? K i) eqn:Ek; [apply Nat.ltb_lt in Ek; auto|]. destruct (bad || negb good); auto. }
    assert (Fl : failed l = true -> failed l' = true).
    { unfold failed, l'. cbn [cr ins rem set_rem]. rewrite Er. intros H. apply orb_true_iff in H as [->|H]; [reflexivity|]. subst bad. unfold nxt. cbn [orb].
      destruct (S j <? K i); apply orb_true_r. }
    destruct good.
    - apply (inv_remove cap ring kinds skips work Hring s i l' n j I Hl X TT eq_refl eq_refl); [|exact Fl].
      intros H. exact (Not n j (or_introl H) eq_refl).
    - apply pass; auto; fold l.
      + intros m k H. apply TT in H. apply H.
      + intros m k H. right. unfold failed, l', nxt. cbn [cr ins rem set_rem negb]. rewrite orb_true_r. destruct (S j <? K i); apply orb_true_r.
  Qed.

  Lemma foreign_keeps s p w : Inv s -> lookup p (fs s) = None ->
    Inv (mk_sys (lines s) ((p, length (ino s)) :: fs s) (ino s ++ [w]) (opened s) ((p, w) :: foreign s) false).
  Proof.
    intros I Hp. pose proof I as I0. destruct I as (P & L & (F1 & F2 & F3) & T & D & Fo & Co & Fd & (On & O)).
    set (g := length (ino s)).
    assert (Lk : forall q f, lookup q (fs s) = Some f -> lookup q ((p, g) :: fs s) = Some f).
    { intros q f H. rewrite lookup_cons. cbn [fst snd]. destruct (beqb q p) eqn:E; [|exact H]. apply beqb_eq in E. subst q. congruence. }
    assert (Old : forall q f, lookup q (fs s) = Some f -> nth f (ino s ++ [w]) [] = nth f (ino s) []).
    { intros q f H. apply app_nth1. exact (F3 q f (lookup_in _ _ _ H)). }
    assert (Np : forall i n j, Tok i (lines s i) n j -> nm i (lines s i) n j <> p).
    { intros i n j X E. destruct (T i n j X) as (_ & f & Lf & _). rewrite E in Lf. congruence. }
    split; [reflexivity|]. split; [exact L|]. split; [|split; [|split; [exact D|split; [|split; [|split]]]]]; cbn [lines fs ino opened foreign].
    - split; [|split]; cbn [fs ino].
      + cbn [map fst]. constructor; [apply lookup_none; exact Hp | exact F1].
      + cbn [map snd]. constructor; [|exact F2]. intros H. apply in_map_iff in H as ([q f] & E & H). cbn in E. subst f. specialize (F3 q g H). unfold g in F3. lia.
      + intros q f [E|H]; rewrite app_length; cbn [length]; [injection E as _ <-; unfold g; lia | specialize (F3 q f H); lia].
    - intros i n j X. cbn [lines fs ino] in *. destruct (T i n j X) as (N & f & Lf & W). split; [exact N|]. exists f. split; [exact (Lk _ _ Lf)|].
      rewrite (Old _ _ Lf). exact W.
    - intros q v [E|H].
      + injection E as <- <-. cbn [fs ino]. split; [|exact Np]. exists g. rewrite lookup_cons. cbn [fst snd]. rewrite beqb_refl. split; [reflexivity|].
        unfold g. rewrite app_nth2, Nat.sub_diag by lia. reflexivity.
      + destruct (Fo q v H) as ((f & Lf & Wf) & No). cbn [fs ino]. split; [|exact No]. exists f. split; [exact (Lk _ _ Lf)|]. rewrite (Old _ _ Lf). exact Wf.
    - intros q f [E|H].
      + injection E as <- <-. left. exists w. left. reflexivity.
      + destruct (Co q f H) as [(v & X)|X]; [left; exists v; right; exact X | right; exact X].
    - intros i. apply (fd_ok_other cap ring kinds skips work Hring s i _ (opened s) I0); [intros q f _; apply Lk | auto].
    - split; [exact On|]. intros f Hf. cbn [lines fs ino opened] in *. destruct (O f Hf) as (B & O'). rewrite app_length. cbn [length]. split; [lia|].
      destruct O' as [X|(X & Y)]; [left; exact X | right]. split; [exact X|]. intros i n j Z Lz. destruct (T i n j Z) as (_ & h & Lh & _).
      rewrite (Lk _ _ Lh) in Lz. apply (Y i n j Z). congruence.
  Qed.

  Lemma step_keeps s a s' : Inv s -> step s a = Some s' -> Inv s'.
  Proof.
    intros I E. unfold sys_step in E. pose proof (proj1 I) as P. rewrite P in E. destruct a as [i c|i good|i good|p w].
    - exact (make_keeps s i c s' I E).
    - exact (ins_keeps s i good s' I E).
    - exact (rem_keeps s i good s' I E).
    - destruct (lookup p (fs s)) eqn:El; [discriminate E|]. injection E as <-. apply foreign_keeps; assumption.
  Qed.

  Lemma start_fs (files : list (bytes * bytes)) k : NoDup (map fst files) -> let l := combine (map fst files) (seq k (length files)) in
    map fst l = map fst files /\ map snd l = seq k (length files) /\ forall p w, In (p, w) files -> exists m, In (p, k + m) l /\ nth m (map snd files) [] = w.
  Proof.
    intros _ l. subst l. revert k. induction files as [|[p w] files IH]; intros k; [split; [reflexivity|]; split; [reflexivity | intros p w []]|].
    destruct (IH (S k)) as (A & B & C). cbn [map fst snd length seq combine]. rewrite A, B. split; [reflexivity|]. split; [reflexivity|].
    intros q v [E|H].
    - injection E as <- <-. exists 0. rewrite Nat.add_0_r. split; [left; reflexivity | reflexivity].
    - destruct (C q v H) as (m & M1 & M2). exists (S m). split; [right; replace (k + S m) with (S k + m) by lia; exact M1 | exact M2].
  Qed.

  Lemma start_inv (files : list (bytes * bytes)) : NoDup (map fst files) -> Inv (sys_start cap work files).
  Proof.
    intros Hn. destruct (start_fs files 0 Hn) as (A & B & C). set (fs0 := combine (map fst files) (seq 0 (length files))) in *.
    assert (NT : forall i n j, ~ Tok i (new_line cap (work i)) n j).
    { intros i n j (_ & [H|[H|H]]); exact H. }
    assert (Fk : forall p f, In (p, f) fs0 -> f < length (map snd files)).
    { intros p f H. apply (in_map snd) in H. rewrite B in H. apply in_seq in H. rewrite map_length. cbn in H. lia. }
    split; [reflexivity|]. split; [|split; [|split; [|split; [|split; [|split; [|split]]]]]]; cbn [lines fs ino opened foreign sys_start].
    - intros i. split; [exact Logic.I|]. split; [exact Logic.I|]. split; [exact Logic.I|]. split; [exists []; split; reflexivity|]. split; [reflexivity|].
      split; [|exact Logic.I]. intros j k. apply repeat_length.
    - split; [|split]; cbn [fs ino sys_start]; fold fs0; [rewrite A; exact Hn | rewrite B; apply seq_NoDup | exact Fk].
    - intros i n j H. exfalso. exact (NT i n j H).
    - intros i n j i' n' j' H. exfalso. exact (NT i n j H).
    - intros p w H. cbn [fs ino sys_start lines]. fold fs0. split; [|intros i n j X; exfalso; exact (NT i n j X)].
      destruct (C p w H) as (m & M1 & M2). exists m. split; [|exact M2]. apply in_lookup; [rewrite A; exact Hn | exact M1].
    - intros p f H. cbn [fs sys_start] in H. fold fs0 in H. left. cbn [foreign sys_start]. apply (in_map fst) in H. rewrite A in H. apply in_map_iff in H as ([q w] & E & H).
      cbn in E. subst q. exists w. exact H.
    - intros i. exact Logic.I.
    - split; [constructor | intros f []].
  Qed.

  Lemma run_keeps (files : list (bytes * bytes)) l : NoDup (map fst files) -> Inv (run step (sys_start cap work files) l).
  Proof. intros H. apply run_inv; [exact step_keeps | apply start_inv; exact H]. Qed.
End Temp.
