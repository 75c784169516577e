(** Every step of TempModel keeps the invariant of TempProofs. *)
From Verif Require Import Base BaseLemmas SysModel SysProofs LoadModel TempModel TempBuf TempProofs.

Section Temp.
  Variable cap ring : nat.
  Variable kinds : nat -> list bytes.
  Variable skips : nat -> bool.
  Variable work : nat -> list batch.
  Hypothesis Hring : 3 <= ring.
  Hypothesis Hkinds : forall i, kinds i <> [].
  Hypothesis Hprefix : forall i p, In p (kinds i) -> p <> [] /\ ~ In x00 p /\ length p + random_count + length suffix < cap.

  Notation K i := (length (kinds i)).
  Notation bat i n := (nth n (batches skips i (work i)) []).
  Notation text i n j := (raw_file (rows_of (bat i n) j)).
  Notation nm := (name ring kinds).
  Notation bf := (buf ring).
  Notation step := (sys_step ring kinds skips).
  Notation Inv := (inv cap ring kinds skips work).
  Notation Lok := (line_ok cap ring kinds skips work).
  Notation Tok := (token kinds).
  Notation Now := (content_now skips work).
  Notation put s i l' fs' ino' op' := (set_line (set_os s fs' ino' op') i l').

  Lemma kinds_pos i : 0 < K i.
  Proof. specialize (Hkinds i). destruct (kinds i); [contradiction | cbn; lia]. Qed.

  (** ** Buffers of a line *)
  Lemma put_buf_same l n j x : bf (put_buf ring l n j x) n j = x.
  Proof. unfold buf, put_buf. cbn [bufs]. now rewrite !upd_same. Qed.
  Lemma put_buf_other l n j x n' j' : j' <> j \/ n' mod ring <> n mod ring -> bf (put_buf ring l n j x) n' j' = bf l n' j'.
  Proof.
    intros H. unfold buf, put_buf. cbn [bufs]. unfold upd. destruct (j' =? j) eqn:E; [|reflexivity].
    apply Nat.eqb_eq in E. subst j'. destruct H as [H|H]; [contradiction|]. apply Nat.eqb_neq in H. now rewrite H.
  Qed.
  Lemma put_buf_id l n j n' j' : bf (put_buf ring l n j (bf l n j)) n' j' = bf l n' j'.
  Proof.
    unfold buf, put_buf. cbn [bufs]. unfold upd. destruct (j' =? j) eqn:E; [|reflexivity].
    apply Nat.eqb_eq in E. subst j'. destruct (n' mod ring =? n mod ring) eqn:E2; [|reflexivity]. apply Nat.eqb_eq in E2. rewrite E2. reflexivity.
  Qed.
  Lemma put_buf_len l n j x : length x = cap -> (forall j' k, length (bufs l j' k) = cap) -> forall j' k, length (bufs (put_buf ring l n j x) j' k) = cap.
  Proof. intros Hx Hl j' k. unfold put_buf. cbn [bufs]. unfold upd. destruct (j' =? j); [destruct (k =? n mod ring)|]; auto. Qed.
  Lemma name_buf i l l' n j : bf l' n j = bf l n j -> nm i l' n j = nm i l n j.
  Proof. intros H. unfold name. now rewrite H. Qed.
  Lemma named_buf i l l' n j : bf l' n j = bf l n j -> named cap ring kinds i l n j -> named cap ring kinds i l' n j.
  Proof. intros H. unfold named. rewrite (name_buf i l l' n j H), H. auto. Qed.

  (** ** Lines *)
  Lemma line_ok_cr i l l' : Lok i l -> ins l' = ins l -> rem l' = rem l -> loaded l' = loaded l -> handed_c l' = handed_c l ->
    pos_cr kinds skips work i l' -> pos_todo skips work i l' -> form_ok cap ring kinds i l' -> Lok i l'.
  Proof.
    intros (Pc & Pi & Pr & Pt & Lo & Fo) Ei Er El Eh H1 H2 H3.
    split; [exact H1|]. split; [|split; [|split; [exact H2|split; [|exact H3]]]].
    - unfold pos_ins in *. rewrite Ei, Eh. exact Pi.
    - unfold pos_rem, handed_i in *. rewrite Er, Ei, Eh. exact Pr.
    - unfold loaded_ok, handed_i, in_load in *. rewrite El, Ei, Eh. exact Lo.
  Qed.
  (** The batches before that of the creator are complete. *)
  Lemma tok_after i l n j : Lok i l -> tok_ins l n \/ tok_rem l n j -> n < handed_c l /\ handed_c l <= n + 2.
  Proof.
    intros (Pc & Pi & Pr & _) [H|H].
    - unfold tok_ins, pos_ins in *. destruct (ins l); try contradiction; intuition lia.
    - unfold tok_rem, pos_rem, handed_i, pos_ins in *. destruct (rem l); try contradiction; destruct (ins l); intuition lia.
  Qed.
  Lemma cr_number i l n : Lok i l -> (exists b j a, cr l = CTry n b j a) \/ (exists b j f, cr l = CClose1 n b j f) \/ (exists b j, cr l = COpen n b j) \/
    (exists b j f cs, cr l = CWrite n b j f cs) \/ cr l = CSend n \/ cr l = CFail n -> handed_c l = n.
  Proof.
    intros (Pc & _) H. unfold pos_cr, handed_c in *.
    destruct H as [(b & j & a & E)|[(b & j & f & E)|[(b & j & E)|[(b & j & f & cs & E)|[E|E]]]]]; rewrite E in *; intuition lia.
  Qed.
  Lemma now_after i l n j w : Lok i l -> tok_ins l n \/ tok_rem l n j -> Now i l n j w -> w = text i n j.
  Proof.
    intros L H. destruct (tok_after i l n j L H) as [A _]. destruct L as (Pc & _). unfold content_now, handed_c, pos_cr in *.
    destruct (cr l); auto; destruct Pc as (P1 & _); replace (n =? n0) with false by (symmetry; apply Nat.eqb_neq; lia); cbn; auto.
  Qed.
  Lemma now_after_intro i l n j w : Lok i l -> tok_ins l n \/ tok_rem l n j -> w = text i n j -> Now i l n j w.
  Proof.
    intros L H. destruct (tok_after i l n j L H) as [A _]. destruct L as (Pc & _). unfold content_now, handed_c, pos_cr in *.
    destruct (cr l); auto; destruct Pc as (P1 & _); replace (n =? n0) with false by (symmetry; apply Nat.eqb_neq; lia); cbn; auto.
  Qed.
  Lemma tok_ins_eq l l' n : ins l' = ins l -> tok_ins l' n = tok_ins l n.
  Proof. intros H. unfold tok_ins. now rewrite H. Qed.
  Lemma tok_rem_eq l l' n j : rem l' = rem l -> tok_rem l' n j = tok_rem l n j.
  Proof. intros H. unfold tok_rem. now rewrite H. Qed.

  (** A step of the creating stage that creates no file: [keep] says which files of the current batch stay live. *)
  Lemma inv_creator s i l' (ino' : list bytes) op' : Inv s -> Lok i l' -> ins l' = ins (lines s i) -> rem l' = rem (lines s i) ->
    handed_c l' = handed_c (lines s i) ->
    (forall n j, Tok i (lines s i) n j -> tok_ins (lines s i) n \/ tok_rem (lines s i) n j \/ tok_cr l' n j -> bf l' n j = bf (lines s i) n j) ->
    (forall n j, j < K i -> tok_cr l' n j -> tok_cr (lines s i) n j /\
       forall f, lookup (nm i (lines s i) n j) (fs s) = Some f -> Now i (lines s i) n j (nth f (ino s) []) -> Now i l' n j (nth f ino' [])) ->
    length ino' = length (ino s) ->
    (forall f, nth f ino' [] = nth f (ino s) [] \/ has_fd (lines s i) f) ->
    (is_cfail l' \/ forall n j, tok_cr (lines s i) n j -> tok_cr l' n j) ->
    ~ is_cfail (lines s i) ->
    fd_ok ring kinds i l' (fs s) op' ->
    (op' = opened s /\ (forall f, has_fd (lines s i) f -> has_fd l' f \/ (is_cfail l' /\ forall n j, ~ tok_cr l' n j)) \/
     (exists f, has_fd (lines s i) f /\ op' = close f (opened s)) \/
     (exists f n j, (forall g, ~ has_fd (lines s i) g) /\ tok_cr (lines s i) n j /\ j < K i /\ lookup (nm i (lines s i) n j) (fs s) = Some f /\ has_fd l' f /\
        op' = f :: opened s)) ->
    Inv (put s i l' (fs s) ino' op').
  Proof.
    intros I Hl Ei Er Eh Hb Hc Hn Hi Hk Hnf Hfd Hop. pose proof I as I0. destruct I as (P & L & F & T & D & Fo & Co & Fd & Op). pose proof (L i) as Li.
    assert (TT : forall n j, Tok i l' n j -> Tok i (lines s i) n j /\ nm i l' n j = nm i (lines s i) n j /\ bf l' n j = bf (lines s i) n j).
    { intros n j (Hj & H). rewrite (tok_ins_eq _ _ n Ei), (tok_rem_eq _ _ n j Er) in H.
      assert (X : Tok i (lines s i) n j) by (split; [exact Hj|]; destruct H as [H|H]; [left; apply (Hc n j Hj); exact H | right; exact H]).
      assert (B : bf l' n j = bf (lines s i) n j) by (apply Hb; [exact X|]; tauto). split; [exact X|]. split; [apply name_buf; exact B | exact B]. }
    assert (FT : forall f, has_fd (lines s i) f -> exists n j, Tok i (lines s i) n j /\ lookup (nm i (lines s i) n j) (fs s) = Some f).
    { intros f H. destruct (fd_token cap ring kinds skips work Hring s i f I0 H) as (n & j & A & B & _). eauto. }
    assert (Fl : failed (lines s i) = true -> failed l' = true).
    { unfold failed. rewrite Ei, Er. intros X. destruct (cr l'); cbn [orb]; auto;
        destruct (cr (lines s i)) eqn:Ec; auto; exfalso; apply Hnf; unfold is_cfail; rewrite Ec; exact Logic.I. }
    apply (inv_local cap ring kinds skips work Hring s i l' ino' op' I0 Hl).
    - intros n j X. destruct (TT n j X) as (A & B & C). split; [exact A|]. split; [exact B|]. split; [apply (named_buf i (lines s i)); [exact C | apply (T i n j A)]|].
      intros f Lf Cf. destruct X as (Hj & [X|X]); [apply (Hc n j Hj X); assumption|]. rewrite (tok_ins_eq _ _ n Ei), (tok_rem_eq _ _ n j Er) in X.
      apply now_after_intro; [exact Hl | rewrite (tok_ins_eq _ _ n Ei), (tok_rem_eq _ _ n j Er); exact X|].
      pose proof (now_after i (lines s i) n j _ Li X Cf) as W. destruct (Hi f) as [->|Hf]; [exact W|].
      exfalso. destruct (fd_token cap ring kinds skips work Hring s i f I0 Hf) as (n' & j' & A' & B' & C' & _).
      destruct (token_inode cap ring kinds skips work s i n j i n' j' f I0 A A' Lf B') as (_ & -> & ->).
      destruct (tok_after i (lines s i) n' j' Li X) as [Z _].
      destruct Li as (Pc & _). unfold tok_cr, handed_c, pos_cr in *. destruct (cr (lines s i)); try contradiction; intuition lia.
    - exact Hn.
    - intros f. destruct (Hi f) as [E|H]; [left; exact E | right; exact (FT f H)].
    - intros n j (Hj & H). destruct Hk as [Hk|Hk].
      + right. unfold is_cfail, failed in *. destruct (cr l'); try contradiction. reflexivity.
      + left. split; [exact Hj|]. rewrite (tok_ins_eq _ _ n Ei), (tok_rem_eq _ _ n j Er). destruct H as [H|H]; [left; apply Hk; exact H | right; exact H].
    - exact Fl.
    - exact Hfd.
    - intros i' f N Hf Hin. destruct Hop as [[-> _]|[(g & Hg & ->)|(g & n & j & _ & _ & _ & _ & _ & ->)]]; [exact Hin| |right; exact Hin].
      apply close_in. split; [exact Hin|]. intros E. subst g. apply N. exact (fd_unique cap ring kinds skips work Hring s i' i f I0 Hf Hg).
    - assert (TS : forall i' n j, Tok i' (lines (put s i l' (fs s) ino' op') i') n j -> Tok i' (lines s i') n j /\
                nm i' (lines (put s i l' (fs s) ino' op') i') n j = nm i' (lines s i') n j).
      { intros i' n j. rewrite lines_put. destruct (i' =? i) eqn:E; [|auto]. apply Nat.eqb_eq in E. subst i'. intros X. destruct (TT n j X) as (A & B & _). auto. }
      destruct Op as (On & O). apply (opened_frame cap ring kinds skips work Hring s i l' (fs s) ino' op' I0).
      + destruct Hop as [[-> _]|[(g & Hg & ->)|(g & n & j & Hno & Ht & Hj & Hlk & _ & ->)]]; [exact On | apply NoDup_filter; exact On|].
        constructor; [|exact On]. intros Hin. destruct (O g Hin) as (_ & [(i0 & H0)|(_ & H0)]).
        * destruct (fd_token cap ring kinds skips work Hring s i0 g I0 H0) as (n' & j' & A' & B' & _).
          destruct (token_inode cap ring kinds skips work s i n j i0 n' j' g I0 (conj Hj (or_introl Ht)) A' Hlk B') as (<- & _). exact (Hno g H0).
        * exact (H0 i n j (conj Hj (or_introl Ht)) Hlk).
      + lia.
      + intros g Hg. destruct Hop as [[-> H]|[(g0 & Hg0 & ->)|(g0 & n & j & Hno & Ht & Hj & Hlk & Hf & ->)]].
        * right. split; [exact Hg|]. intros X. destruct (H g X) as [Y|[Y Z]]; [left; exact Y|]. right. split; [exact Y|].
          intros i' n j X' Lg. destruct (TS i' n j X') as (A & B). rewrite B in Lg.
          destruct (fd_token cap ring kinds skips work Hring s i g I0 X) as (n' & j' & A' & B' & C' & _).
          destruct (token_inode cap ring kinds skips work s i' n j i n' j' g I0 A A' Lg B') as (-> & -> & ->).
          rewrite lines_put, Nat.eqb_refl in X'. destruct X' as (Hj & [X'|X']); [exact (Z _ _ X')|].
          rewrite (tok_ins_eq _ _ n' Ei), (tok_rem_eq _ _ n' j' Er) in X'. destruct (tok_after i (lines s i) n' j' Li X') as [W _].
          destruct Li as (Pc & _). unfold tok_cr, handed_c, pos_cr in *. destruct (cr (lines s i)); try contradiction; intuition lia.
        * apply close_in in Hg as [Hg Ng]. right. split; [exact Hg|]. intros X. exfalso. apply Ng. unfold has_fd in *. destruct (cr (lines s i)); try contradiction; congruence.
        * destruct Hg as [<-|Hg].
          -- left. split; [exact Hf|]. rewrite Hn. destruct F as (_ & _ & F3). exact (F3 _ _ (lookup_in _ _ _ Hlk)).
          -- right. split; [exact Hg|]. intros X. exfalso. exact (Hno g X).
      + intros X. contradiction.
      + intros i' n j g X _ Lg. destruct (TS i' n j X) as (A & B). split; [exact A|]. rewrite B in Lg. exact Lg.
  Qed.

  Lemma after_other i l n j : Lok i l -> tok_ins l n \/ tok_rem l n j -> n mod ring <> handed_c l mod ring.
  Proof. intros L H. destruct (tok_after i l n j L H). apply mod_near; lia. Qed.
  Lemma todo_len i l : pos_todo skips work i l -> made l <= length (batches skips i (work i)).
  Proof. intros (pre & E & Hl). rewrite E, app_length. lia. Qed.

  Ltac easy_goals :=
    try match goal with
        | |- _ = _ => first [reflexivity | assumption]
        | |- pos_todo _ _ _ _ => assumption
        | |- inv _ _ _ _ _ _ => assumption
        | |- forall f, nth f _ _ = _ \/ _ => intros; left; reflexivity
        end.

  Lemma keep_skip s i b rest : Inv s -> cr (lines s i) = CIdle -> todo (lines s i) = b :: rest -> skips i && empty_batch b = true ->
    Inv (set_line s i (mk_line rest (made (lines s i)) CIdle (ins (lines s i)) (rem (lines s i)) (bufs (lines s i)) (loaded (lines s i)))).
  Proof.
    intros I Ec Et Es. pose proof I as I0. destruct I as (P & L & F & T & D & Fo & Co & Fd & Op). pose proof (L i) as Li.
    set (l := lines s i) in *. set (l' := mk_line _ _ _ _ _ _ _). change (Inv (put s i l' (fs s) (ino s) (opened s))).
    assert (Eh : handed_c l' = handed_c l) by (unfold handed_c; rewrite Ec; reflexivity).
    apply inv_creator; easy_goals; fold l.
    - apply (line_ok_cr i l l' Li); easy_goals.
      + exact Logic.I.
      + destruct Li as (_ & _ & _ & (pre & E1 & E2) & _). exists pre. split; [|exact E2]. rewrite E1, Et. unfold batches at 1. cbn [filter]. rewrite Es. reflexivity.
      + destruct Li as (_ & _ & _ & _ & _ & (B & _)). split; [exact B | exact Logic.I].
    - intros n j _ _. reflexivity.
    - intros n j _ H. contradiction.
    - right. intros n j H. unfold tok_cr in H. rewrite Ec in H. contradiction.
    - unfold is_cfail. rewrite Ec. auto.
    - exact Logic.I.
    - left. split; [reflexivity|]. intros f H. unfold has_fd in H. rewrite Ec in H. contradiction.
  Qed.

  Lemma keep_first s i b rest : Inv s -> cr (lines s i) = CIdle -> todo (lines s i) = b :: rest -> skips i && empty_batch b = false ->
    Inv (begin_file ring kinds s i (mk_line rest (S (made (lines s i))) CIdle (ins (lines s i)) (rem (lines s i)) (bufs (lines s i)) (loaded (lines s i)))
           (made (lines s i)) b 0).
  Proof.
    intros I Ec Et Es. pose proof I as I0. destruct I as (P & L & F & T & D & Fo & Co & Fd & Op). pose proof (L i) as Li.
    set (l := lines s i) in *. set (l0 := mk_line _ _ _ _ _ _ _). set (n := made l).
    assert (Eh0 : handed_c l = n) by (unfold handed_c; rewrite Ec; reflexivity).
    destruct (prefix_good cap kinds Hprefix i 0 (kinds_pos i)) as (A1 & A2 & A3).
    destruct Li as (Pc & Pi & Pr & (pre & E1 & E2) & Lo & (B & _)).
    assert (Li : Lok i l) by exact (L i).
    destruct (prepare_spec cap (bf l n 0) (prefix_of kinds i 0) suffix (B _ _) A1 A3) as (x & Ex & Hx).
    unfold begin_file. change (bf l0 n 0) with (bf l n 0). rewrite Ex. set (l' := set_cr _ _).
    change (Inv (put s i l' (fs s) (ino s) (opened s))).
    assert (Eh : handed_c l' = handed_c l) by (rewrite Eh0; reflexivity).
    assert (Eb : b = bat i n).
    { rewrite E1, Et. unfold batches. cbn [filter]. rewrite Es. cbn [negb]. rewrite app_nth2 by (unfold n; lia). unfold n. rewrite E2, Nat.sub_diag. reflexivity. }
    apply inv_creator; easy_goals; fold l.
    - apply (line_ok_cr i l l' Li); easy_goals.
      + split; [reflexivity|]. split; [exact Eb | apply kinds_pos].
      + exists (pre ++ [b]). split; [|rewrite app_length; cbn; unfold l0 in *; cbn; lia].
        rewrite E1, Et, <- app_assoc. unfold batches. cbn [filter]. rewrite Es. reflexivity.
      + split; [|].
        * apply put_buf_len; [apply Hx | exact B].
        * change (holds_form cap (bf (put_buf ring l0 n 0 x) n 0) (prefix_of kinds i 0) suffix). rewrite put_buf_same. exact Hx.
    - intros n' j' _ H. change (bf (put_buf ring l0 n 0 x) n' j' = bf l0 n' j'). apply put_buf_other. right. rewrite <- Eh0.
      destruct H as [H|[H|H]]; [apply (after_other i l n' j' Li); auto | apply (after_other i l n' j' Li); auto|]. destruct H as [_ H]. lia.
    - intros n' j' _ [_ H]. lia.
    - right. intros n' j' H. unfold tok_cr in H. rewrite Ec in H. contradiction.
    - unfold is_cfail. rewrite Ec. auto.
    - exact Logic.I.
    - left. split; [reflexivity|]. intros f H. unfold has_fd in H. rewrite Ec in H. contradiction.
  Qed.

  Lemma todo_cr i l c : pos_todo skips work i l -> pos_todo skips work i (set_cr l c).
  Proof. intros H. exact H. Qed.

  Lemma keep_try s i c s' n b j att : Inv s -> cr (lines s i) = CTry n b j att -> make_step ring kinds skips s i c = Some s' -> Inv s'.
  Proof.
    intros I Ec E. pose proof I as I0. destruct I as (P & L & F & T & D & Fo & Co & Fd & Op). pose proof (L i) as Li.
    unfold make_step in E. rewrite Ec in E. set (l := lines s i) in *. set (x := randomize _ _ _) in *. set (l1 := put_buf ring l n j x) in *.
    destruct Li as (Pc & Pi & Pr & Pt & Lo & (B & Hf)). assert (Li : Lok i l) by exact (L i).
    unfold pos_cr in Pc. rewrite Ec in Pc, Hf. destruct Pc as (M & Eb & Hj).
    destruct (prefix_good cap kinds Hprefix i j Hj) as (A1 & A2 & A3).
    destruct (randomize_spec cap (bf l n j) (prefix_of kinds i j) suffix (draw c) A2 A1 suffix_good Hf) as (Hx & Hx2 & Hx3). fold x in Hx, Hx2, Hx3.
    assert (Eh0 : handed_c l = n) by (unfold handed_c; rewrite Ec; lia).
    assert (Bx : forall j' k, length (bufs l1 j' k) = cap) by (apply put_buf_len; [apply Hx | exact B]).
    assert (Ot : forall n' j', tok_ins l n' \/ tok_rem l n' j' \/ (n' = n /\ j' < j) -> bf l1 n' j' = bf l n' j').
    { intros n' j' H. apply put_buf_other. destruct H as [H|[H|[_ H]]]; [right|right|left; lia]; rewrite <- Eh0; apply (after_other i l n' j' Li); auto. }
    assert (Fail : Inv (put s i (set_cr l1 (CFail n)) (fs s) (ino s) (opened s))).
    { set (l' := set_cr l1 (CFail n)). apply inv_creator; easy_goals; fold l.
      - apply (line_ok_cr i l l' Li); easy_goals.
        + unfold handed_c. rewrite Ec. reflexivity.
        + exact M.
        + split; [exact Bx | exact Logic.I].
      - unfold handed_c. rewrite Ec. reflexivity.
      - intros n' j' _ [H|[H|H]]; [| |contradiction]; apply (Ot n' j'); auto.
      - intros n' j' _ H. contradiction.
      - left. exact Logic.I.
      - unfold is_cfail. rewrite Ec. auto.
      - exact Logic.I.
      - left. split; [reflexivity|]. intros f H. unfold has_fd in H. rewrite Ec in H. contradiction. }
    destruct (negb (ok c)); [injection E as <-; exact Fail|].
    destruct (lookup (cstring x) (fs s)) as [g|] eqn:Elk.
    - destruct (S att <? max_attempts); injection E as <-; [|exact Fail].
      set (l' := set_cr l1 (CTry n b j (S att))). change (Inv (put s i l' (fs s) (ino s) (opened s))).
      apply inv_creator; easy_goals; fold l.
      + apply (line_ok_cr i l l' Li); easy_goals.
        * unfold handed_c. rewrite Ec. reflexivity.
        * split; [exact M|]. split; [exact Eb | exact Hj].
        * split; [exact Bx|]. change (holds_form cap (bf l1 n j) (prefix_of kinds i j) suffix). unfold l1. rewrite put_buf_same. exact Hx2.
      + unfold handed_c. rewrite Ec. reflexivity.
      + intros n' j' _ H. apply (Ot n' j'). exact H.
      + intros n' j' _ H. split; [unfold tok_cr; rewrite Ec; exact H|]. intros f _ W. unfold content_now in *. rewrite Ec in W. exact W.
      + right. intros n' j' H. unfold tok_cr in H. rewrite Ec in H. exact H.
      + unfold is_cfail. rewrite Ec. auto.
      + exact Logic.I.
      + left. split; [reflexivity|]. intros f H. unfold has_fd in H. rewrite Ec in H. contradiction.
    - injection E as <-. set (f := length (ino s)). set (l' := set_cr l1 (CClose1 n b j f)).
      assert (Bn : bf l' n j = x) by (unfold l', l1; change (bf (put_buf ring l n j x) n j = x); apply put_buf_same).
      assert (Ln : length (prefix_of kinds i j ++ random_part (draw c) ++ suffix) = name_len kinds i j).
      { unfold name_len. rewrite !app_length, random_part_length. lia. }
      assert (En : nm i l' n j = prefix_of kinds i j ++ random_part (draw c) ++ suffix).
      { unfold name. rewrite Bn, <- Ln. apply (holds_name_facts cap x). exact Hx. }
      assert (Nd : named cap ring kinds i l' n j) by (unfold named; rewrite En, Bn; split; [exact Hx | exact Ln]).
      assert (Tn : Tok i l' n j) by (split; [exact Hj|]; left; split; [reflexivity | lia]).
      assert (Ot' : forall n' j', Tok i l n' j' -> Tok i l' n' j' /\ bf l' n' j' = bf l n' j').
      { intros n' j' (H1 & H2). split.
        - split; [exact H1|]. destruct H2 as [H2|H2]; [left; unfold tok_cr in H2; rewrite Ec in H2; destruct H2; split; [assumption | lia] | right; exact H2].
        - apply (Ot n' j'). destruct H2 as [H2|[H2|H2]]; auto. unfold tok_cr in H2. rewrite Ec in H2. auto. }
      apply (inv_create cap ring kinds skips work Hring s i l' n j (cstring x)); fold l; fold f; auto.
      + apply (line_ok_cr i l l' Li); easy_goals.
        * unfold handed_c. rewrite Ec. reflexivity.
        * split; [exact M|]. split; [exact Eb | exact Hj].
        * split; [exact Bx | exact Logic.I].
      + rewrite En, Hx3. reflexivity.
      + unfold content_now. cbn [cr l' set_cr]. rewrite !Nat.eqb_refl. reflexivity.
      + intros n' j' X. destruct (Nat.eq_dec n' n) as [->|Nn].
        * destruct (Nat.eq_dec j' j) as [->|Nj]; [left; auto|]. right.
          assert (X0 : Tok i l n j').
          { destruct X as (H1 & H2). split; [exact H1|]. destruct H2 as [[_ H2]|H2]; [left; unfold tok_cr; rewrite Ec; split; [reflexivity | lia] | right; exact H2]. }
          destruct (Ot' n j' X0) as [_ Bq]. split; [exact X0|]. split; [apply name_buf; exact Bq|].
          split; [apply (named_buf i l); [exact Bq | apply (T i n j' X0)]|]. intros w W. unfold content_now in *. cbn [cr l' set_cr]. rewrite Ec in W.
          apply Nat.eqb_neq in Nj. rewrite Nj, andb_false_r. exact W.
        * right. assert (X0 : Tok i l n' j').
          { destruct X as (H1 & H2). split; [exact H1|]. destruct H2 as [[H2 _]|H2]; [contradiction | right; exact H2]. }
          destruct (Ot' n' j' X0) as [_ Bq]. split; [exact X0|]. split; [apply name_buf; exact Bq|].
          split; [apply (named_buf i l); [exact Bq | apply (T i n' j' X0)]|]. intros w W. unfold content_now in *. cbn [cr l' set_cr]. rewrite Ec in W.
          apply Nat.eqb_neq in Nn. rewrite Nn. exact W.
      + intros n' j' X. destruct (Ot' n' j' X) as [Y Bq]. split; [exact Y | apply name_buf; exact Bq].
      + unfold failed. rewrite Ec. auto.
      + intros g H. unfold has_fd in H. rewrite Ec in H. exact H.
      + unfold is_cfail. rewrite Ec. contradiction.
      + reflexivity.
      + unfold fd_ok. cbn [cr l' set_cr]. rewrite En, Hx3, lookup_cons. cbn [fst snd]. rewrite beqb_refl. split; [reflexivity | left; reflexivity].
  Qed.

  Lemma keep_close1 s i c s' n b j f : Inv s -> cr (lines s i) = CClose1 n b j f -> make_step ring kinds skips s i c = Some s' -> Inv s'.
  Proof.
    intros I Ec E. pose proof I as I0. destruct I as (P & L & F & T & D & Fo & Co & Fd & Op). pose proof (L i) as Li.
    unfold make_step in E. rewrite Ec in E. set (l := lines s i) in *.
    destruct Li as (Pc & Pi & Pr & Pt & Lo & (B & Hf)). assert (Li : Lok i l) by exact (L i).
    unfold pos_cr in Pc. rewrite Ec in Pc. destruct Pc as (M & Eb & Hj). injection E as <-. set (l' := set_cr _ _).
    assert (Eh : handed_c l' = handed_c l) by (unfold handed_c; rewrite Ec; unfold l'; destruct (ok c); reflexivity).
    apply inv_creator; easy_goals; fold l.
    - apply (line_ok_cr i l l' Li); easy_goals.
      + unfold l', pos_cr. cbn [cr set_cr made]. destruct (ok c); auto.
      + split; [exact B|]. unfold l'. cbn [cr set_cr]. destruct (ok c); exact Logic.I.
    - intros n' j' _ _. reflexivity.
    - intros n' j' _ H. unfold l', tok_cr, content_now in *. cbn [cr set_cr] in *. destruct (ok c); [|contradiction]. rewrite Ec. split; [exact H|]. intros g _ W. exact W.
    - unfold l', is_cfail, tok_cr. cbn [cr set_cr]. destruct (ok c); [right | left; exact Logic.I]. intros n' j'. rewrite Ec. auto.
    - unfold is_cfail. rewrite Ec. auto.
    - unfold l', fd_ok. cbn [cr set_cr]. destruct (ok c); exact Logic.I.
    - right. left. exists f. split; [unfold has_fd; rewrite Ec; reflexivity | reflexivity].
  Qed.

  Lemma keep_open s i c s' n b j : Inv s -> cr (lines s i) = COpen n b j -> make_step ring kinds skips s i c = Some s' -> Inv s'.
  Proof.
    intros I Ec E. pose proof I as I0. destruct I as (P & L & F & T & D & Fo & Co & Fd & Op). pose proof (L i) as Li.
    unfold make_step in E. rewrite Ec in E. set (l := lines s i) in *.
    destruct Li as (Pc & Pi & Pr & Pt & Lo & (B & Hf)). assert (Li : Lok i l) by exact (L i).
    unfold pos_cr in Pc. rewrite Ec in Pc. destruct Pc as (M & Eb & Hj).
    assert (Tk : Tok i l n j) by (split; [exact Hj|]; left; unfold tok_cr; rewrite Ec; split; [reflexivity | lia]).
    destruct (T i n j Tk) as ((Hn & Hl) & f & Lf & Cf). fold l in Hn, Hl, Lf, Cf.
    rewrite (open_spec cap _ _ (same c) Hn) in E. set (l1 := put_buf ring l n j (bf l n j)) in *.
    assert (Bx : forall j' k, length (bufs l1 j' k) = cap) by (apply put_buf_len; [apply B | exact B]).
    destruct (negb (ok c)).
    - injection E as <-. set (l' := set_cr _ _). change (Inv (put s i l' (fs s) (ino s) (opened s))).
      apply inv_creator; easy_goals; fold l.
      + apply (line_ok_cr i l l' Li); easy_goals.
        * unfold handed_c. rewrite Ec. reflexivity.
        * exact M.
        * split; [exact Bx | exact Logic.I].
      + unfold handed_c. rewrite Ec. reflexivity.
      + intros n' j' _ _. apply put_buf_id.
      + intros n' j' _ H. contradiction.
      + left. exact Logic.I.
      + unfold is_cfail. rewrite Ec. auto.
      + exact Logic.I.
      + left. split; [reflexivity|]. intros g H. unfold has_fd in H. rewrite Ec in H. contradiction.
    - destruct (holds_name_facts _ _ _ Hn) as [_ Hs]. rewrite Hs, Lf in E. injection E as <-. set (l' := set_cr _ _).
      apply inv_creator; easy_goals; fold l.
      + apply (line_ok_cr i l l' Li); easy_goals.
        * unfold handed_c. rewrite Ec. reflexivity.
        * split; [exact M|]. split; [exact Eb | exact Hj].
        * split; [exact Bx | exact Logic.I].
      + unfold handed_c. rewrite Ec. reflexivity.
      + intros n' j' _ _. apply put_buf_id.
      + intros n' j' _ H. split; [unfold tok_cr; rewrite Ec; exact H|]. intros g _ W. unfold content_now in *. cbn [cr l' set_cr]. rewrite Ec in W.
        destruct ((n' =? n) && (j' =? j)) eqn:Eq; [|exact W]. rewrite W, chunks_text. cbn [app]. apply andb_true_iff in Eq as [E1 E2].
        apply Nat.eqb_eq in E1, E2. subst n' j'. rewrite <- Eb. reflexivity.
      + right. intros n' j' H. unfold tok_cr in H. rewrite Ec in H. exact H.
      + unfold is_cfail. rewrite Ec. auto.
      + unfold fd_ok. cbn [cr l' set_cr]. split; [|left; reflexivity]. rewrite <- Lf. f_equal. apply name_buf. apply put_buf_id.
      + right. right. exists f, n, j. split; [intros g H; unfold has_fd in H; rewrite Ec in H; exact H|].
        split; [unfold tok_cr; rewrite Ec; split; [reflexivity | lia]|]. split; [exact Hj|]. split; [exact Lf|]. split; reflexivity.
  Qed.

  Lemma keep_write s i c s' n b j f cs : Inv s -> cr (lines s i) = CWrite n b j f cs -> make_step ring kinds skips s i c = Some s' -> Inv s'.
  Proof.
    intros I Ec E. pose proof I as I0. destruct I as (P & L & F & T & D & Fo & Co & Fd & Op). pose proof (L i) as Li.
    unfold make_step in E. rewrite Ec in E. set (l := lines s i) in *.
    destruct Li as (Pc & Pi & Pr & Pt & Lo & (B & Hf)). assert (Li : Lok i l) by exact (L i).
    unfold pos_cr in Pc. rewrite Ec in Pc. destruct Pc as (M & Eb & Hj).
    assert (Fdi := Fd i). fold l in Fdi. unfold fd_ok in Fdi. rewrite Ec in Fdi. destruct Fdi as [Lf Inf].
    assert (Hff : has_fd l f) by (unfold has_fd; rewrite Ec; reflexivity).
    assert (Tk : Tok i l n j) by (split; [exact Hj|]; left; unfold tok_cr; rewrite Ec; split; [reflexivity | lia]).
    assert (Bd : f < length (ino s)) by (destruct F as (_ & _ & F3); exact (F3 _ _ (lookup_in _ _ _ Lf))).
    assert (Hset : forall y g, nth g (set_nth f y (ino s)) [] = nth g (ino s) [] \/ has_fd l g).
    { intros y g. destruct (Nat.eq_dec g f) as [->|N]; [right; exact Hff | left; apply nth_set_nth_other; exact N]. }
    destruct cs as [|x cs].
    - destruct (negb (ok c)); [|destruct (S j <? K i) eqn:Ek].
      + injection E as <-. set (l' := set_cr _ _).
        apply inv_creator; easy_goals; fold l.
        * apply (line_ok_cr i l l' Li); easy_goals.
          -- unfold handed_c. rewrite Ec. reflexivity.
          -- exact M.
          -- split; [exact B | exact Logic.I].
        * unfold handed_c. rewrite Ec. reflexivity.
        * intros n' j' _ _. reflexivity.
        * intros n' j' _ H. contradiction.
        * left. exact Logic.I.
        * unfold is_cfail. rewrite Ec. auto.
        * exact Logic.I.
        * right. left. exists f. split; [exact Hff | reflexivity].
      + apply Nat.ltb_lt in Ek. destruct (prefix_good cap kinds Hprefix i (S j) Ek) as (A1 & A2 & A3).
        destruct (prepare_spec cap (bf l n (S j)) (prefix_of kinds i (S j)) suffix (B _ _) A1 A3) as (x & Ex & Hx).
        unfold begin_file in E. rewrite Ex in E. injection E as <-. set (l' := set_cr _ _).
        change (Inv (put s i l' (fs s) (ino s) (close f (opened s)))).
        assert (Eh0 : handed_c l = n) by (unfold handed_c; rewrite Ec; lia).
        apply inv_creator; easy_goals; fold l.
        * apply (line_ok_cr i l l' Li); easy_goals.
          -- unfold handed_c. rewrite Ec. reflexivity.
          -- split; [exact M|]. split; [exact Eb | exact Ek].
          -- split; [apply put_buf_len; [apply Hx | exact B]|].
             change (holds_form cap (bf (put_buf ring l n (S j) x) n (S j)) (prefix_of kinds i (S j)) suffix). rewrite put_buf_same. exact Hx.
        * unfold handed_c. rewrite Ec. reflexivity.
        * intros n' j' _ H. change (bf (put_buf ring l n (S j) x) n' j' = bf l n' j'). apply put_buf_other.
          destruct H as [H|[H|[_ H]]]; [right|right|left; lia]; rewrite <- Eh0; apply (after_other i l n' j' Li); auto.
        * intros n' j' _ [-> H]. split; [unfold tok_cr; rewrite Ec; split; [reflexivity | lia]|]. intros g _ W. unfold content_now in *. rewrite Ec in W. cbn [cr l' set_cr].
          destruct ((n =? n) && (j' =? j)); [|exact W]. cbn [concat] in W. rewrite app_nil_r in W. exact W.
        * right. intros n' j' H. unfold tok_cr in H. rewrite Ec in H. destruct H as [-> H]. split; [reflexivity | lia].
        * unfold is_cfail. rewrite Ec. auto.
        * exact Logic.I.
        * right. left. exists f. split; [exact Hff | reflexivity].
      + apply Nat.ltb_ge in Ek. injection E as <-. set (l' := set_cr _ _).
        apply inv_creator; easy_goals; fold l.
        * apply (line_ok_cr i l l' Li); easy_goals.
          -- unfold handed_c. rewrite Ec. reflexivity.
          -- exact M.
          -- split; [exact B | exact Logic.I].
        * unfold handed_c. rewrite Ec. reflexivity.
        * intros n' j' _ _. reflexivity.
        * intros n' j' Hj' H. change (n' = n) in H. subst n'. split; [unfold tok_cr; rewrite Ec; split; [reflexivity | lia]|].
          intros g _ W. unfold content_now in *. rewrite Ec in W. cbn [cr l' set_cr].
          destruct ((n =? n) && (j' =? j)); [|exact W]. cbn [concat] in W. rewrite app_nil_r in W. exact W.
        * right. intros n' j' H. unfold tok_cr in H. rewrite Ec in H. exact (proj1 H).
        * unfold is_cfail. rewrite Ec. auto.
        * exact Logic.I.
        * right. left. exists f. split; [exact Hff | reflexivity].
    - injection E as <-. set (l' := set_cr _ _).
      apply inv_creator; easy_goals; fold l.
      + apply (line_ok_cr i l l' Li); easy_goals.
        * unfold handed_c, l'. rewrite Ec. destruct (ok c); reflexivity.
        * unfold l', pos_cr. cbn [cr set_cr made]. destruct (ok c); auto.
        * split; [exact B|]. unfold l'. cbn [cr set_cr]. destruct (ok c); exact Logic.I.
      + unfold handed_c, l'. rewrite Ec. destruct (ok c); reflexivity.
      + intros n' j' _ _. reflexivity.
      + intros n' j' _ H. unfold l', tok_cr in H. cbn [cr set_cr] in H. destruct (ok c) eqn:Eo; [|contradiction]. split; [unfold tok_cr; rewrite Ec; exact H|].
        intros g Lg W. unfold content_now in *. rewrite Ec in W. unfold l'. cbn [cr set_cr].
        destruct ((n' =? n) && (j' =? j)) eqn:Eq.
        * apply andb_true_iff in Eq as [E1 E2]. apply Nat.eqb_eq in E1, E2. subst n' j'. rewrite Lf in Lg. injection Lg as <-.
          rewrite nth_set_nth_same by exact Bd. rewrite <- app_assoc. exact W.
        * rewrite nth_set_nth_other; [exact W|]. intros ->.
          assert (X : Tok i l n' j') by (split; [lia|]; left; unfold tok_cr; rewrite Ec; exact H).
          destruct (token_inode cap ring kinds skips work s i n' j' i n j f I0 X Tk Lg Lf) as (_ & -> & ->). rewrite !Nat.eqb_refl in Eq. discriminate Eq.
      + apply set_nth_len.
      + apply Hset.
      + unfold l', is_cfail, tok_cr. cbn [cr set_cr]. destruct (ok c); [right | left; exact Logic.I]. intros n' j'. rewrite Ec. auto.
      + unfold is_cfail. rewrite Ec. auto.
      + unfold l', fd_ok. cbn [cr set_cr]. destruct (ok c); [|exact Logic.I]. split; [exact Lf | exact Inf].
      + left. split; [reflexivity|]. intros g H. unfold has_fd in *. rewrite Ec in H. subst g. unfold l', is_cfail, tok_cr. cbn [cr set_cr].
        destruct (ok c); [left; reflexivity | right; split; [exact Logic.I | auto]].
  Qed.

  (** ** Handing over, the other two stages *)
  Lemma now_complete i l n j w : (cr l = CIdle \/ (exists m, cr l = CSend m) \/ exists m b k a, cr l = CTry m b k a) -> Now i l n j w <-> w = text i n j.
  Proof. intros [E|[(m & E)|(m & b & k & a & E)]]; unfold content_now; rewrite E; reflexivity. Qed.

  Lemma inv_pass s i l' : Inv s -> Lok i l' -> bufs l' = bufs (lines s i) ->
    (forall n j, Tok i l' n j -> Tok i (lines s i) n j) -> (forall n j, Tok i (lines s i) n j -> Tok i l' n j \/ failed l' = true) ->
    (forall n j w, Tok i l' n j -> Now i (lines s i) n j w -> Now i l' n j w) ->
    (failed (lines s i) = true -> failed l' = true) ->
    (cr l' = cr (lines s i) \/ ((forall f, ~ has_fd (lines s i) f) /\ (forall f, ~ has_fd l' f) /\ ~ is_cfail (lines s i))) ->
    Inv (set_line s i l').
  Proof.
    intros I Hl Hb Ht Hk Hw Hf Hc. pose proof I as I0. destruct I as (P & L & F & T & D & Fo & Co & Fd & Op).
    change (Inv (put s i l' (fs s) (ino s) (opened s))).
    assert (Bu : forall n j, bf l' n j = bf (lines s i) n j) by (intros n j; unfold buf; rewrite Hb; reflexivity).
    apply (inv_local cap ring kinds skips work Hring s i l' (ino s) (opened s) I0 Hl); auto.
    - intros n j X. pose proof (Ht n j X) as Y. split; [exact Y|]. split; [apply name_buf; apply Bu|].
      split; [apply (named_buf i (lines s i)); [apply Bu | apply (T i n j Y)]|]. intros f _ W. exact (Hw n j _ X W).
    - specialize (Fd i). unfold fd_ok in *. destruct Hc as [->|(_ & H & _)].
      + destruct (cr (lines s i)); auto; rewrite (name_buf i (lines s i) l' n j (Bu n j)); exact Fd.
      + unfold has_fd in H. destruct (cr l'); auto; exfalso; apply (H f); reflexivity.
    - assert (TS : forall i' n j, Tok i' (lines (put s i l' (fs s) (ino s) (opened s)) i') n j -> Tok i' (lines s i') n j /\
                nm i' (lines (put s i l' (fs s) (ino s) (opened s)) i') n j = nm i' (lines s i') n j).
      { intros i' n j. rewrite lines_put. destruct (i' =? i) eqn:E; [|auto]. apply Nat.eqb_eq in E. subst i'. intros X. split; [exact (Ht n j X) | apply name_buf; apply Bu]. }
      destruct Op as (On & O). apply (opened_frame cap ring kinds skips work Hring s i l' (fs s) (ino s) (opened s) I0); auto.
      + intros g Hg. right. split; [exact Hg|]. intros X. destruct Hc as [E|(H & _)]; [left; unfold has_fd in *; rewrite E; exact X | exfalso; exact (H g X)].
      + intros X. destruct Hc as [E|(_ & _ & H)]; [unfold is_cfail in *; rewrite E; exact X | contradiction].
      + intros i' n j g X _ Lg. destruct (TS i' n j X) as (A & B). split; [exact A|]. rewrite B in Lg. exact Lg.
  Qed.
End Temp.
