(** The invariant of TempModel: which names are live, what their files contain, and that nobody else has them. *)
From Verif Require Import Base BaseLemmas SysModel SysProofs LoadModel TempModel TempBuf.

(** ** Folders *)
Lemma lookup_cons p e l : lookup p (e :: l) = if beqb p (fst e) then Some (snd e) else lookup p l.
Proof. unfold lookup. cbn [find]. destruct (beqb p (fst e)); reflexivity. Qed.
Lemma lookup_in p f l : lookup p l = Some f -> In (p, f) l.
Proof.
  induction l as [|[q g] l IH]; [discriminate|]. rewrite lookup_cons. cbn [fst snd]. destruct (beqb p q) eqn:E.
  - intros H. injection H as <-. apply beqb_eq in E. subst q. left. reflexivity.
  - intros H. right. exact (IH H).
Qed.
Lemma in_lookup p f l : NoDup (map fst l) -> In (p, f) l -> lookup p l = Some f.
Proof.
  induction l as [|[q g] l IH]; [contradiction|]. cbn [map fst]. intros Hn Hin. inversion Hn as [|? ? Hq Hl]; subst. rewrite lookup_cons. cbn [fst snd].
  destruct Hin as [E|Hin].
  - injection E as -> ->. rewrite beqb_refl. reflexivity.
  - destruct (beqb p q) eqn:E; [|exact (IH Hl Hin)]. apply beqb_eq in E. subst q. exfalso. apply Hq. apply in_map_iff. exists (p, f). now split.
Qed.
Lemma lookup_none p l : lookup p l = None -> ~ In p (map fst l).
Proof.
  induction l as [|[q g] l IH]; [intros _ []|]. rewrite lookup_cons. cbn [fst snd map]. destruct (beqb p q) eqn:E; [discriminate|].
  intros H [Hq|Hin]; [|exact (IH H Hin)]. subst q. rewrite beqb_refl in E. discriminate E.
Qed.
Lemma lookup_unlink p q l : lookup q (unlink p l) = if beqb p q then None else lookup q l.
Proof.
  induction l as [|[r g] l IH]; [cbn; destruct (beqb p q); reflexivity|]. cbn [unlink filter fst]. fold (unlink p l).
  destruct (beqb p r) eqn:E; cbn [negb].
  - apply beqb_eq in E. subst r. rewrite IH, lookup_cons. cbn [fst snd]. destruct (beqb p q) eqn:E2; [reflexivity|].
    destruct (beqb q p) eqn:E3; [|reflexivity]. apply beqb_eq in E3. subst q. rewrite beqb_refl in E2. discriminate E2.
  - rewrite !lookup_cons, IH. cbn [fst snd]. destruct (beqb q r) eqn:E2; [|reflexivity]. apply beqb_eq in E2. subst r. rewrite E. reflexivity.
Qed.
Lemma unlink_in p e l : In e (unlink p l) -> In e l /\ fst e <> p.
Proof.
  unfold unlink. rewrite filter_In. intros [H E]. split; [exact H|]. intros X. subst p. rewrite beqb_refl in E. discriminate E.
Qed.
Lemma NoDup_map_filter {A B} (f : A -> B) g l : NoDup (map f l) -> NoDup (map f (filter g l)).
Proof.
  induction l as [|x l IH]; [auto|]. cbn [map filter]. intros H. inversion H as [|? ? Hx Hl]; subst. destruct (g x); [|exact (IH Hl)].
  cbn [map]. constructor; [|exact (IH Hl)]. intros Hin. apply Hx. apply in_map_iff in Hin as (y & E & Hy). apply filter_In in Hy as [Hy _].
  apply in_map_iff. exists y. now split.
Qed.
Lemma same_inode (p q : bytes) (f : nat) l : NoDup (map snd l) -> In (p, f) l -> In (q, f) l -> p = q.
Proof.
  induction l as [|[r g] l IH]; [contradiction|]. cbn [map snd]. intros H. inversion H as [|? ? Hg Hl]; subst.
  intros [E1|H1] [E2|H2].
  - congruence.
  - injection E1 as -> ->. exfalso. apply Hg. apply in_map_iff. exists (q, f). now split.
  - injection E2 as -> ->. exfalso. apply Hg. apply in_map_iff. exists (p, f). now split.
  - exact (IH Hl H1 H2).
Qed.
Lemma close_in f g l : In g (close f l) <-> In g l /\ g <> f.
Proof.
  unfold close. rewrite filter_In. split; intros [H E]; split; auto.
  - intros X. subst g. rewrite Nat.eqb_refl in E. discriminate E.
  - destruct (f =? g) eqn:X; [|reflexivity]. apply Nat.eqb_eq in X. congruence.
Qed.
Lemma upd_same {A} k (x : A) f : upd k x f k = x.
Proof. unfold upd. now rewrite Nat.eqb_refl. Qed.
Lemma upd_other {A} k (x : A) f k' : k' <> k -> upd k x f k' = f k'.
Proof. intros H. unfold upd. apply Nat.eqb_neq in H. now rewrite H. Qed.
Lemma nth_set_nth_same {A} f (x d : A) l : f < length l -> nth f (set_nth f x l) d = x.
Proof. revert f. induction l as [|y l IH]; intros [|f] H; cbn in *; try lia; [reflexivity|]. apply IH. lia. Qed.
Lemma nth_set_nth_other {A} f g (x d : A) l : g <> f -> nth g (set_nth f x l) d = nth g l d.
Proof. revert f g. induction l as [|y l IH]; intros [|f] [|g] H; cbn; try reflexivity; try lia. apply IH. lia. Qed.
Lemma set_nth_len {A} f (x : A) l : length (set_nth f x l) = length l.
Proof. revert f. induction l as [|y l IH]; intros [|f]; cbn; auto. Qed.

Lemma mod_near ring a b : 3 <= ring -> a < b -> b <= a + 2 -> a mod ring <> b mod ring.
Proof.
  intros Hr H1 H2 E.
  assert (Ea := Nat.div_mod a ring ltac:(lia)). assert (Eb := Nat.div_mod b ring ltac:(lia)).
  rewrite E in Ea. remember (a / ring) as qa. remember (b / ring) as qb.
  assert (D : b - a = ring * qb - ring * qa) by lia. rewrite <- Nat.mul_sub_distr_l in D.
  destruct (qb - qa) as [|k]; [rewrite Nat.mul_0_r in D; lia|]. rewrite Nat.mul_succ_r in D. lia.
Qed.

Section Temp.
  Variable cap ring : nat.
  Variable kinds : nat -> list bytes.
  Variable skips : nat -> bool.
  Variable work : nat -> list batch.
  Hypothesis Hring : 3 <= ring.
  Hypothesis Hkinds : forall i, kinds i <> [].
  Hypothesis Hprefix : forall i p, In p (kinds i) -> p <> [] /\ ~ In x00 p /\ length p + random_count + length suffix < cap.

  Notation K i := (length (kinds i)).
  Notation bat i n := (nth n (batches skips i (work i)) []).
  Notation text i n j := (raw_file (rows_of (bat i n) j)).
  Notation nm := (name ring kinds).
  Notation bf := (buf ring).
  Notation step := (sys_step ring kinds skips).

  Lemma prefix_good i j : j < K i ->
    prefix_of kinds i j <> [] /\ ~ In x00 (prefix_of kinds i j) /\ length (prefix_of kinds i j) + random_count + length suffix < cap.
  Proof. intros H. apply (Hprefix i). unfold prefix_of. apply nth_In. exact H. Qed.
  Lemma suffix_good : ~ In x00 suffix.
  Proof. unfold suffix. cbn. intros [H|[H|[H|[H|[]]]]]; discriminate H. Qed.

  (** How many batches a stage has passed on. *)
  Definition handed_c (l : line) : nat := match cr l with CIdle => made l | _ => pred (made l) end.
  Definition handed_i (l : line) : nat := match ins l with IIdle => handed_c l | _ => pred (handed_c l) end.
  Definition pos_cr (i : nat) (l : line) : Prop :=
    match cr l with
    | CIdle => True
    | CTry n b j _ | CClose1 n b j _ | COpen n b j | CWrite n b j _ _ => made l = S n /\ b = bat i n /\ j < K i
    | CSend n | CFail n => made l = S n
    end.
  Definition pos_ins (i : nat) (l : line) : Prop :=
    match ins l with IIdle => True | IChmod n j | ILoad n j | IFail n j => handed_c l = S n /\ j < K i | ISend n => handed_c l = S n end.
  Definition pos_rem (i : nat) (l : line) : Prop :=
    match rem l with RIdle => True | RDo n j _ => handed_i l = S n /\ j < K i | RFail n => handed_i l = S n end.
  Definition pos_todo (i : nat) (l : line) : Prop := exists pre, batches skips i (work i) = pre ++ batches skips i (todo l) /\ length pre = made l.
  Definition in_load (i : nat) (l : line) : nat :=
    match ins l with IIdle => 0 | IChmod _ j | ILoad _ j | IFail _ j => j | ISend _ => K i end.
  Definition loaded_ok (i : nat) (l : line) : Prop :=
    loaded l = flat_map (expected kinds i) (firstn (handed_i l) (batches skips i (work i))) ++
               map (fun j => (j, text i (handed_i l) j)) (seq 0 (in_load i l)).

  (** Live files. *)
  Definition tok_cr (l : line) (n j : nat) : Prop :=
    match cr l with
    | CTry n' _ j' _ => n = n' /\ j < j'
    | CClose1 n' _ j' _ | COpen n' _ j' | CWrite n' _ j' _ _ => n = n' /\ j <= j'
    | CSend n' => n = n'
    | _ => False
    end.
  Definition tok_ins (l : line) (n : nat) : Prop := match ins l with IChmod n' _ | ILoad n' _ | ISend n' => n = n' | _ => False end.
  Definition tok_rem (l : line) (n j : nat) : Prop := match rem l with RDo n' j' _ => n = n' /\ j' <= j | _ => False end.
  Definition token (i : nat) (l : line) (n j : nat) : Prop := j < K i /\ (tok_cr l n j \/ tok_ins l n \/ tok_rem l n j).
  Definition content_now (i : nat) (l : line) (n j : nat) (w : bytes) : Prop :=
    match cr l with
    | CClose1 n' _ j' _ | COpen n' _ j' => if (n =? n') && (j =? j') then w = [] else w = text i n j
    | CWrite n' _ j' _ cs => if (n =? n') && (j =? j') then w ++ concat cs = text i n j else w = text i n j
    | _ => w = text i n j
    end.
  Definition has_fd (l : line) (f : nat) : Prop := match cr l with CClose1 _ _ _ g | CWrite _ _ _ g _ => g = f | _ => False end.
  Definition is_cfail (l : line) : Prop := match cr l with CFail _ => True | _ => False end.
  Definition fd_ok (i : nat) (l : line) (fs0 : list (bytes * nat)) (op : list nat) : Prop :=
    match cr l with CClose1 n _ j f | CWrite n _ j f _ => lookup (nm i l n j) fs0 = Some f /\ In f op | _ => True end.
  Definition form_ok (i : nat) (l : line) : Prop :=
    (forall j k, length (bufs l j k) = cap) /\
    match cr l with CTry n _ j _ => holds_form cap (bf l n j) (prefix_of kinds i j) suffix | _ => True end.
  Definition named (i : nat) (l : line) (n j : nat) : Prop :=
    holds_name cap (bf l n j) (nm i l n j) /\ length (nm i l n j) = name_len kinds i j.
  Definition opened_ok (s : sys) : Prop :=
    NoDup (opened s) /\
    forall f, In f (opened s) -> f < length (ino s) /\
      ((exists i, has_fd (lines s i) f) \/
       ((exists i, is_cfail (lines s i)) /\ forall i n j, token i (lines s i) n j -> lookup (nm i (lines s i) n j) (fs s) <> Some f)).

  Definition line_ok (i : nat) (l : line) : Prop := pos_cr i l /\ pos_ins i l /\ pos_rem i l /\ pos_todo i l /\ loaded_ok i l /\ form_ok i l.
  Definition fs_ok (s : sys) : Prop :=
    NoDup (map fst (fs s)) /\ NoDup (map snd (fs s)) /\ forall p f, In (p, f) (fs s) -> f < length (ino s).
  Definition tok_ok (s : sys) : Prop :=
    forall i n j, token i (lines s i) n j -> named i (lines s i) n j /\
      exists f, lookup (nm i (lines s i) n j) (fs s) = Some f /\ content_now i (lines s i) n j (nth f (ino s) []).
  Definition diff_ok (s : sys) : Prop :=
    forall i n j i' n' j', token i (lines s i) n j -> token i' (lines s i') n' j' ->
      nm i (lines s i) n j = nm i' (lines s i') n' j' -> i = i' /\ n = n' /\ j = j'.
  Definition foreign_ok (s : sys) : Prop :=
    forall p w, In (p, w) (foreign s) -> (exists f, lookup p (fs s) = Some f /\ nth f (ino s) [] = w) /\
      (forall i n j, token i (lines s i) n j -> nm i (lines s i) n j <> p).
  Definition cover_ok (s : sys) : Prop :=
    forall p f, In (p, f) (fs s) -> (exists w, In (p, w) (foreign s)) \/ (exists i n j, token i (lines s i) n j /\ nm i (lines s i) n j = p) \/
      exists i, failed (lines s i) = true.
  Definition inv (s : sys) : Prop :=
    panicked s = false /\ (forall i, line_ok i (lines s i)) /\ fs_ok s /\ tok_ok s /\ diff_ok s /\ foreign_ok s /\ cover_ok s /\
    (forall i, fd_ok i (lines s i) (fs s) (opened s)) /\ opened_ok s.

  (** Different batches in flight have different buffers. *)
  Lemma token_near i l n j : line_ok i l -> token i l n j -> n < made l /\ made l <= n + 3.
  Proof.
    intros (Pc & Pi & Pr & _) (_ & [H|[H|H]]).
    - unfold tok_cr, pos_cr in *. destruct (cr l); try contradiction; intuition lia.
    - unfold tok_ins, pos_ins, handed_c, pos_cr in *. destruct (ins l); try contradiction; destruct (cr l); intuition lia.
    - unfold tok_rem, pos_rem, handed_i, handed_c, pos_ins, pos_cr in *. destruct (rem l); try contradiction; destruct (ins l); destruct (cr l);
        unfold handed_c in *; intuition lia.
  Qed.
  Lemma token_distinct i l n j n' j' : line_ok i l -> token i l n j -> token i l n' j' -> n <> n' -> n mod ring <> n' mod ring.
  Proof.
    intros L T T' N. destruct (token_near _ _ _ _ L T), (token_near _ _ _ _ L T').
    assert (n < n' \/ n' < n) as [X|X] by lia; [apply mod_near; lia|]. intros E. symmetry in E. revert E. apply mod_near; lia.
  Qed.

  (** Two live files have different inodes. *)
  Lemma token_inode s i n j i' n' j' f : inv s -> token i (lines s i) n j -> token i' (lines s i') n' j' ->
    lookup (nm i (lines s i) n j) (fs s) = Some f -> lookup (nm i' (lines s i') n' j') (fs s) = Some f -> i = i' /\ n = n' /\ j = j'.
  Proof.
    intros (_ & _ & (Hn & Hi & _) & _ & D & _) T T' L L'. apply (D i n j i' n' j' T T').
    apply lookup_in in L, L'. exact (same_inode _ _ _ _ Hi L L').
  Qed.
  Lemma fd_token s i f : inv s -> has_fd (lines s i) f -> exists n j, token i (lines s i) n j /\ lookup (nm i (lines s i) n j) (fs s) = Some f /\
    tok_cr (lines s i) n j /\ In f (opened s).
  Proof.
    intros (_ & L & _ & _ & _ & _ & _ & F & _) H. specialize (L i). specialize (F i). destruct L as (Pc & _). unfold has_fd, fd_ok, pos_cr in *.
    destruct (cr (lines s i)) eqn:E; try contradiction; subst; exists n, j; destruct F as [F1 F2]; destruct Pc as (P1 & P2 & P3).
    all: assert (C : tok_cr (lines s i) n j) by (unfold tok_cr; rewrite E; split; [reflexivity | lia]).
    all: split; [split; [exact P3 | left; exact C]|]; split; [exact F1|]; split; [exact C | exact F2].
  Qed.
  Lemma fd_unique s i i' f : inv s -> has_fd (lines s i) f -> has_fd (lines s i') f -> i = i'.
  Proof.
    intros I H H'. destruct (fd_token s i f I H) as (n & j & T & L & _). destruct (fd_token s i' f I H') as (n' & j' & T' & L' & _).
    exact (proj1 (token_inode s i n j i' n' j' f I T T' L L')).
  Qed.
  Lemma fd_ok_other s i' fs' op' : inv s -> (forall p f, (exists n j, token i' (lines s i') n j /\ nm i' (lines s i') n j = p) ->
      lookup p (fs s) = Some f -> lookup p fs' = Some f) ->
    (forall f, has_fd (lines s i') f -> In f (opened s) -> In f op') -> fd_ok i' (lines s i') fs' op'.
  Proof.
    intros I Hl Ho.
    assert (A : forall f, has_fd (lines s i') f -> In f op').
    { intros f Hf. apply (Ho f Hf). destruct (fd_token s i' f I Hf) as (n & j & _ & _ & _ & X). exact X. }
    destruct I as (_ & L & _ & _ & _ & _ & _ & F & _). specialize (L i'). specialize (F i'). destruct L as (Pc & _).
    unfold fd_ok, pos_cr, has_fd in *. destruct (cr (lines s i')) eqn:E; try exact I; destruct F as [F1 F2]; (split; [|apply A; reflexivity]);
      (apply Hl; [|exact F1]); exists n, j; (split; [|reflexivity]); (split; [apply Pc|]); left; unfold tok_cr; rewrite E; split; [reflexivity | lia | reflexivity | lia].
  Qed.

  Notation put s i l' fs' ino' op' := (set_line (set_os s fs' ino' op') i l').
  Lemma lines_put s i l' fs' ino' op' i' : lines (put s i l' fs' ino' op') i' = if i' =? i then l' else lines s i'.
  Proof. reflexivity. Qed.

  Lemma opened_frame s i l' fs' (ino' : list bytes) op' : inv s -> NoDup op' -> length (ino s) <= length ino' ->
    (forall g, In g op' -> (has_fd l' g /\ g < length ino') \/
       (In g (opened s) /\ (has_fd (lines s i) g -> has_fd l' g \/
          (is_cfail l' /\ forall i' n j, token i' (lines (put s i l' fs' ino' op') i') n j -> lookup (nm i' (lines (put s i l' fs' ino' op') i') n j) fs' <> Some g)))) ->
    (is_cfail (lines s i) -> is_cfail l') ->
    (forall i' n j g, token i' (lines (put s i l' fs' ino' op') i') n j -> In g (opened s) ->
       lookup (nm i' (lines (put s i l' fs' ino' op') i') n j) fs' = Some g ->
       token i' (lines s i') n j /\ lookup (nm i' (lines s i') n j) (fs s) = Some g) ->
    opened_ok (put s i l' fs' ino' op').
  Proof.
    intros I Hn Hl Hc Hf Ht. split; [exact Hn|]. intros g Hg. change (ino (put s i l' fs' ino' op')) with ino'. change (fs (put s i l' fs' ino' op')) with fs'.
    destruct (Hc g Hg) as [[H1 H2]|[H1 H2]].
    - split; [exact H2|]. left. exists i. rewrite lines_put, Nat.eqb_refl. exact H1.
    - destruct I as (_ & _ & _ & _ & _ & _ & _ & _ & (_ & O)). destruct (O g H1) as (B & O'). split; [lia|].
      destruct O' as [(i0 & Hi0)|((i0 & Hi0) & Hno)].
      + destruct (Nat.eq_dec i0 i) as [->|N].
        * destruct (H2 Hi0) as [X|[X Y]].
          -- left. exists i. rewrite lines_put, Nat.eqb_refl. exact X.
          -- right. split; [exists i; rewrite lines_put, Nat.eqb_refl; exact X | exact Y].
        * left. exists i0. rewrite lines_put. apply Nat.eqb_neq in N. rewrite N. exact Hi0.
      + right. split.
        * destruct (Nat.eq_dec i0 i) as [->|N].
          -- exists i. rewrite lines_put, Nat.eqb_refl. exact (Hf Hi0).
          -- exists i0. rewrite lines_put. apply Nat.eqb_neq in N. rewrite N. exact Hi0.
        * intros i' n j T L. destruct (Ht i' n j g T H1 L) as (T' & L'). exact (Hno i' n j T' L').
  Qed.

  (** A step of line [i] that creates and removes no file. *)
  Lemma inv_local s i l' (ino' : list bytes) op' : inv s -> line_ok i l' ->
    (forall n j, token i l' n j -> token i (lines s i) n j /\ nm i l' n j = nm i (lines s i) n j /\ named i l' n j /\
       forall f, lookup (nm i (lines s i) n j) (fs s) = Some f -> content_now i (lines s i) n j (nth f (ino s) []) ->
         content_now i l' n j (nth f ino' [])) ->
    length ino' = length (ino s) ->
    (forall f, nth f ino' [] = nth f (ino s) [] \/ exists n j, token i (lines s i) n j /\ lookup (nm i (lines s i) n j) (fs s) = Some f) ->
    (forall n j, token i (lines s i) n j -> token i l' n j \/ failed l' = true) ->
    (failed (lines s i) = true -> failed l' = true) ->
    fd_ok i l' (fs s) op' -> (forall i' f, i' <> i -> has_fd (lines s i') f -> In f (opened s) -> In f op') ->
    opened_ok (put s i l' (fs s) ino' op') -> inv (put s i l' (fs s) ino' op').
  Proof.
    intros I Hl Ht Hn Hi Hk Hf Hfd Hoth Ho. pose proof I as I0. destruct I as (P & L & F & T & D & Fo & Co & Fd & Op).
    assert (TT : forall i' n j, token i' (lines (put s i l' (fs s) ino' op') i') n j -> token i' (lines s i') n j /\
              nm i' (lines (put s i l' (fs s) ino' op') i') n j = nm i' (lines s i') n j).
    { intros i' n j. rewrite lines_put. destruct (i' =? i) eqn:E; [|auto]. apply Nat.eqb_eq in E. subst i'. intros X. destruct (Ht n j X) as (A & B & _). auto. }
    split; [exact P|]. split; [|split; [|split; [|split; [|split; [|split; [|split; [|exact Ho]]]]]]].
    - intros i'. rewrite lines_put. destruct (i' =? i) eqn:E; [apply Nat.eqb_eq in E; subst i'; exact Hl | apply L].
    - destruct F as (F1 & F2 & F3). split; [exact F1|]. split; [exact F2|]. intros p f H. change (f < length ino'). rewrite Hn. exact (F3 p f H).
    - intros i' n j X. destruct (TT i' n j X) as (X0 & E0). cbn [fs ino set_line set_os]. rewrite E0. destruct (T i' n j X0) as (N0 & f & Lf & Cf).
      revert X E0. rewrite lines_put. destruct (i' =? i) eqn:E.
      + apply Nat.eqb_eq in E. subst i'. intros X E0. destruct (Ht n j X) as (_ & _ & B & C). split; [exact B|].
        exists f. split; [exact Lf | exact (C f Lf Cf)].
      + intros X E0. split; [exact N0|]. exists f. split; [exact Lf|]. destruct (Hi f) as [->|(n' & j' & X' & L')]; [exact Cf|].
        exfalso. destruct (token_inode s i' n j i n' j' f I0 X0 X' Lf L') as (Ei & _). apply Nat.eqb_neq in E. contradiction.
    - intros i1 n1 j1 i2 n2 j2 X1 X2 E. destruct (TT _ _ _ X1) as (Y1 & E1). destruct (TT _ _ _ X2) as (Y2 & E2). rewrite E1, E2 in E. exact (D _ _ _ _ _ _ Y1 Y2 E).
    - intros p w H. destruct (Fo p w H) as ((f & Lf & Wf) & No). split.
      + exists f. split; [exact Lf|]. change (nth f ino' [] = w). destruct (Hi f) as [->|(n' & j' & X' & L')]; [exact Wf|].
        exfalso. apply (No i n' j' X'). apply lookup_in in Lf, L'. destruct F as (_ & F2 & _). exact (same_inode _ _ _ _ F2 L' Lf).
      + intros i' n j X. destruct (TT _ _ _ X) as (Y & E). rewrite E. exact (No i' n j Y).
    - intros p f H. destruct (Co p f H) as [X|[(i0 & n0 & j0 & X & E)|(i0 & X)]]; [left; exact X| |].
      + destruct (Nat.eq_dec i0 i) as [->|N].
        * destruct (Hk n0 j0 X) as [Y|Y].
          -- right. left. exists i, n0, j0. rewrite lines_put, Nat.eqb_refl. split; [exact Y|]. destruct (Ht n0 j0 Y) as (_ & B & _). congruence.
          -- right. right. exists i. rewrite lines_put, Nat.eqb_refl. exact Y.
        * right. left. exists i0, n0, j0. rewrite lines_put. apply Nat.eqb_neq in N. rewrite N. split; assumption.
      + right. right. destruct (Nat.eq_dec i0 i) as [->|N].
        * exists i. rewrite lines_put, Nat.eqb_refl. exact (Hf X).
        * exists i0. rewrite lines_put. apply Nat.eqb_neq in N. rewrite N. exact X.
    - intros i'. rewrite lines_put. destruct (i' =? i) eqn:E; [apply Nat.eqb_eq in E; subst i'; exact Hfd|]. cbn [fs opened set_line set_os].
      apply Nat.eqb_neq in E. apply (fd_ok_other s i' (fs s) op' I0); [auto|]. intros f. exact (Hoth i' f E).
  Qed.

  (** A step that creates the file [j] of batch [n]. *)
  Lemma inv_create s i l' n0 j0 p : inv s -> line_ok i l' -> lookup p (fs s) = None ->
    token i l' n0 j0 -> nm i l' n0 j0 = p -> named i l' n0 j0 -> content_now i l' n0 j0 [] ->
    (forall n j, token i l' n j -> (n = n0 /\ j = j0) \/ (token i (lines s i) n j /\ nm i l' n j = nm i (lines s i) n j /\ named i l' n j /\
       forall w, content_now i (lines s i) n j w -> content_now i l' n j w)) ->
    (forall n j, token i (lines s i) n j -> token i l' n j /\ nm i l' n j = nm i (lines s i) n j) ->
    (failed (lines s i) = true -> failed l' = true) ->
    (forall f, ~ has_fd (lines s i) f) -> (is_cfail (lines s i) -> is_cfail l') -> has_fd l' (length (ino s)) ->
    (fd_ok i l' ((p, length (ino s)) :: fs s) (length (ino s) :: opened s)) ->
    inv (put s i l' ((p, length (ino s)) :: fs s) (ino s ++ [[]]) (length (ino s) :: opened s)).
  Proof.
    intros I Hl Hp Ht0 Hn0 Hg0 Hc0 Ht Hk Hf Hnofd Hcf Hfd Hfdok. pose proof I as I0. destruct I as (P & L & F & T & D & Fo & Co & Fd & Op).
    set (g := length (ino s)) in *. set (fs' := (p, g) :: fs s). set (ino' := ino s ++ [[]]). set (op' := g :: opened s).
    destruct F as (F1 & F2 & F3).
    assert (Lk : forall q f, lookup q (fs s) = Some f -> lookup q fs' = Some f).
    { intros q f H. unfold fs'. rewrite lookup_cons. cbn [fst snd]. destruct (beqb q p) eqn:E; [|exact H]. apply beqb_eq in E. subst q. congruence. }
    assert (Lp : lookup p fs' = Some g) by (unfold fs'; rewrite lookup_cons; cbn [fst snd]; now rewrite beqb_refl).
    assert (Old : forall f, f < g -> nth f ino' [] = nth f (ino s) []) by (intros f H; unfold ino'; apply app_nth1; exact H).
    assert (New : nth g ino' [] = []) by (unfold ino', g; rewrite app_nth2, Nat.sub_diag by lia; reflexivity).
    assert (Bd : forall q f, lookup q (fs s) = Some f -> f < g) by (intros q f H; exact (F3 q f (lookup_in _ _ _ H))).
    (* tokens *)
    assert (TT : forall i' n j, token i' (lines (put s i l' fs' ino' op') i') n j ->
              (i' = i /\ n = n0 /\ j = j0) \/ (token i' (lines s i') n j /\ nm i' (lines (put s i l' fs' ino' op') i') n j = nm i' (lines s i') n j)).
    { intros i' n j. rewrite lines_put. destruct (i' =? i) eqn:E; [|auto]. apply Nat.eqb_eq in E. subst i'. intros X.
      destruct (Ht n j X) as [[A B]|(A & B & _)]; [left; auto | right; auto]. }
    assert (Np : forall i' n j, token i' (lines s i') n j -> nm i' (lines s i') n j <> p).
    { intros i' n j X E. destruct (T i' n j X) as (_ & f & Lf & _). rewrite E in Lf. congruence. }
    assert (Nn : nm i (lines (put s i l' fs' ino' op') i) n0 j0 = p) by (rewrite lines_put, Nat.eqb_refl; exact Hn0).
    split; [exact P|]. split; [|split; [|split; [|split; [|split; [|split; [|split]]]]]].
    - intros i'. rewrite lines_put. destruct (i' =? i) eqn:E; [apply Nat.eqb_eq in E; subst i'; exact Hl | apply L].
    - split; [|split]; cbn [fs ino set_line set_os].
      + unfold fs'. cbn [map fst]. constructor; [apply lookup_none; exact Hp | exact F1].
      + unfold fs'. cbn [map snd]. constructor; [|exact F2]. intros H. apply in_map_iff in H as ([q f] & E & H). cbn in E. subst f. specialize (F3 q g H). unfold g in F3. lia.
      + intros q f. unfold fs', ino'. cbn [In]. rewrite app_length. cbn [length]. intros [E|H]; [injection E as _ <-; unfold g; lia | specialize (F3 q f H); lia].
    - intros i' n j X. cbn [fs ino set_line set_os]. destruct (TT i' n j X) as [(-> & -> & ->)|(X0 & E0)].
      + rewrite Nn. rewrite !lines_put, !Nat.eqb_refl. split; [exact Hg0|]. exists g. split; [exact Lp|]. rewrite New. exact Hc0.
      + rewrite E0. destruct (T i' n j X0) as (N0 & f & Lf & Cf). revert X E0. rewrite lines_put. destruct (i' =? i) eqn:E.
        * apply Nat.eqb_eq in E. subst i'. intros X E0. destruct (Ht n j X) as [[-> ->]|(_ & _ & B & C)].
          -- split; [exact Hg0|]. exfalso. apply (Np i n0 j0 X0). congruence.
          -- split; [exact B|]. exists f. split; [exact (Lk _ _ Lf)|]. rewrite (Old f (Bd _ _ Lf)). exact (C _ Cf).
        * intros X E0. split; [exact N0|]. exists f. split; [exact (Lk _ _ Lf)|]. rewrite (Old f (Bd _ _ Lf)). exact Cf.
    - intros i1 n1 j1 i2 n2 j2 X1 X2. destruct (TT _ _ _ X1) as [(-> & -> & ->)|(Y1 & E1)]; destruct (TT _ _ _ X2) as [(-> & -> & ->)|(Y2 & E2)].
      + auto.
      + rewrite Nn, E2. intros E. exfalso. exact (Np _ _ _ Y2 (eq_sym E)).
      + rewrite Nn, E1. intros E. exfalso. exact (Np _ _ _ Y1 E).
      + rewrite E1, E2. exact (D _ _ _ _ _ _ Y1 Y2).
    - intros q w H. destruct (Fo q w H) as ((f & Lf & Wf) & No). split.
      + exists f. split; [exact (Lk _ _ Lf)|]. change (nth f ino' [] = w). rewrite (Old f (Bd _ _ Lf)). exact Wf.
      + intros i' n j X. destruct (TT _ _ _ X) as [(-> & -> & ->)|(Y & E)]; [|rewrite E; exact (No i' n j Y)].
        rewrite Nn. intros E. subst q. congruence.
    - intros q f H. cbn [fs set_line set_os] in H. unfold fs' in H. destruct H as [E|H].
      + injection E as <- <-. right. left. exists i, n0, j0. split; [rewrite lines_put, Nat.eqb_refl; exact Ht0 | exact Nn].
      + destruct (Co q f H) as [X|[(i0 & n1 & j1 & X & E)|(i0 & X)]]; [left; exact X| |].
        * right. left. exists i0, n1, j1. rewrite lines_put. destruct (i0 =? i) eqn:E0; [|split; assumption].
          apply Nat.eqb_eq in E0. subst i0. destruct (Hk n1 j1 X) as [A B]. split; [exact A | congruence].
        * right. right. exists i0. rewrite lines_put. destruct (i0 =? i) eqn:E0; [apply Nat.eqb_eq in E0; subst i0; exact (Hf X) | exact X].
    - intros i'. rewrite lines_put. cbn [fs opened set_line set_os]. destruct (i' =? i) eqn:E; [apply Nat.eqb_eq in E; subst i'; exact Hfdok|].
      apply (fd_ok_other s i' fs' op' I0); [intros q f _; apply Lk|]. intros f _ H. right. exact H.
    - destruct Op as (On & O). apply (opened_frame s i l' fs' ino' op' I0).
      + unfold op'. constructor; [|exact On]. intros H. destruct (O g H) as (B & _). unfold g in B. lia.
      + unfold ino'. rewrite app_length. lia.
      + intros h [<-|H].
        * left. split; [exact Hfd|]. unfold ino'. rewrite app_length. cbn. unfold g. lia.
        * right. split; [exact H|]. intros X. exfalso. exact (Hnofd h X).
      + exact Hcf.
      + intros i' n j h X Hh Lh. destruct (TT _ _ _ X) as [(-> & -> & ->)|(Y & E)].
        * exfalso. rewrite Nn, Lp in Lh. injection Lh as <-. destruct (O g Hh) as (B & _). unfold g in B. lia.
        * split; [exact Y|]. rewrite E in Lh. destruct (T _ _ _ Y) as (_ & f & Lf & _). rewrite (Lk _ _ Lf) in Lh. congruence.
  Qed.

  (** A step that removes the file [j0] of batch [n0]. *)
  Lemma inv_remove s i l' n0 j0 : inv s -> line_ok i l' -> token i (lines s i) n0 j0 ->
    (forall n j, token i l' n j <-> token i (lines s i) n j /\ ~ (n = n0 /\ j = j0)) ->
    bufs l' = bufs (lines s i) -> cr l' = cr (lines s i) -> ~ tok_cr (lines s i) n0 j0 ->
    (failed (lines s i) = true -> failed l' = true) ->
    inv (put s i l' (unlink (nm i (lines s i) n0 j0) (fs s)) (ino s) (opened s)).
  Proof.
    intros I Hl Ht0 Ht Hb Hc Hnc Hf. pose proof I as I0. destruct I as (P & L & F & T & D & Fo & Co & Fd & Op).
    set (p := nm i (lines s i) n0 j0) in *. set (fs' := unlink p (fs s)). destruct F as (F1 & F2 & F3).
    assert (Bu : forall n j, nm i l' n j = nm i (lines s i) n j /\ bf l' n j = bf (lines s i) n j) by (intros n j; unfold name, buf; rewrite Hb; auto).
    assert (Lk : forall i' n j f, token i' (lines s i') n j -> ~ (i' = i /\ n = n0 /\ j = j0) -> lookup (nm i' (lines s i') n j) (fs s) = Some f ->
              lookup (nm i' (lines s i') n j) fs' = Some f).
    { intros i' n j f X N H. unfold fs'. rewrite lookup_unlink. destruct (beqb p (nm i' (lines s i') n j)) eqn:E; [|exact H].
      exfalso. apply N. apply beqb_eq in E. symmetry in E. destruct (D _ _ _ _ _ _ X Ht0 E) as (-> & -> & ->). auto. }
    assert (Lb : forall q f, lookup q fs' = Some f -> lookup q (fs s) = Some f).
    { intros q f. unfold fs'. rewrite lookup_unlink. destruct (beqb p q); [discriminate | auto]. }
    assert (TT : forall i' n j, token i' (lines (put s i l' fs' (ino s) (opened s)) i') n j -> token i' (lines s i') n j /\
              nm i' (lines (put s i l' fs' (ino s) (opened s)) i') n j = nm i' (lines s i') n j /\ ~ (i' = i /\ n = n0 /\ j = j0)).
    { intros i' n j. rewrite lines_put. destruct (i' =? i) eqn:E.
      - apply Nat.eqb_eq in E. subst i'. intros X. apply Ht in X as [X N]. split; [exact X|]. split; [apply Bu|]. intros (_ & A). exact (N A).
      - apply Nat.eqb_neq in E. intros X. split; [exact X|]. split; [reflexivity|]. intros (A & _). exact (E A). }
    split; [exact P|]. split; [|split; [|split; [|split; [|split; [|split; [|split]]]]]].
    - intros i'. rewrite lines_put. destruct (i' =? i) eqn:E; [apply Nat.eqb_eq in E; subst i'; exact Hl | apply L].
    - split; [|split]; cbn [fs ino set_line set_os].
      + apply NoDup_map_filter. exact F1.
      + apply NoDup_map_filter. exact F2.
      + intros q f H. apply unlink_in in H as [H _]. exact (F3 q f H).
    - intros i' n j X. destruct (TT i' n j X) as (X0 & E0 & N). cbn [fs ino set_line set_os]. rewrite E0. destruct (T i' n j X0) as (N0 & f & Lf & Cf).
      revert E0. rewrite lines_put. destruct (i' =? i) eqn:E.
      + apply Nat.eqb_eq in E. subst i'. intros E0. split; [unfold named; destruct (Bu n j) as [-> ->]; exact N0|].
        exists f. split; [exact (Lk _ _ _ _ X0 N Lf)|]. unfold content_now. rewrite Hc. exact Cf.
      + intros E0. split; [exact N0|]. exists f. split; [exact (Lk _ _ _ _ X0 N Lf) | exact Cf].
    - intros i1 n1 j1 i2 n2 j2 X1 X2 E. destruct (TT _ _ _ X1) as (Y1 & E1 & _). destruct (TT _ _ _ X2) as (Y2 & E2 & _).
      rewrite E1, E2 in E. exact (D _ _ _ _ _ _ Y1 Y2 E).
    - intros q w H. destruct (Fo q w H) as ((f & Lf & Wf) & No). split.
      + exists f. split; [|exact Wf]. cbn [fs set_line set_os]. unfold fs'. rewrite lookup_unlink. destruct (beqb p q) eqn:E; [|exact Lf].
        exfalso. apply beqb_eq in E. exact (No i n0 j0 Ht0 E).
      + intros i' n j X. destruct (TT _ _ _ X) as (Y & E & _). rewrite E. exact (No i' n j Y).
    - intros q f H. cbn [fs set_line set_os] in H. apply unlink_in in H as [H Nq]. cbn [fst] in Nq.
      destruct (Co q f H) as [X|[(i0 & n1 & j1 & X & E)|(i0 & X)]]; [left; exact X| |].
      + right. left. exists i0, n1, j1. rewrite lines_put. destruct (i0 =? i) eqn:E0; [|split; assumption].
        apply Nat.eqb_eq in E0. subst i0. destruct (Bu n1 j1) as [-> _]. split; [|exact E]. apply Ht. split; [exact X|]. intros (-> & ->). apply Nq. symmetry. exact E.
      + right. right. exists i0. rewrite lines_put. destruct (i0 =? i) eqn:E0; [apply Nat.eqb_eq in E0; subst i0; exact (Hf X) | exact X].
    - intros i'. cbn [fs opened set_line set_os]. change (lines (put s i l' fs' (ino s) (opened s)) i') with (if i' =? i then l' else lines s i').
      destruct (i' =? i) eqn:E.
      + apply Nat.eqb_eq in E. subst i'. specialize (Fd i). pose proof (L i) as (Pc & _). unfold fd_ok, pos_cr, tok_cr in *. rewrite Hc.
        destruct (cr (lines s i)) eqn:Ec; try exact I; destruct Fd as [A B]; (split; [|exact B]); destruct (Bu n j) as [-> _].
        all: apply (Lk i n j f).
        all: try (split; [apply Pc|]; left; unfold tok_cr; rewrite Ec; split; [reflexivity | lia]).
        all: try exact A.
        all: intros (_ & -> & ->); apply Hnc; split; [reflexivity | lia].
      + apply (fd_ok_other s i' fs' (opened s) I0); [|auto]. intros q f (n & j & X & En) Hq. subst q. apply Lk; [exact X| |exact Hq].
        intros (A & _). apply Nat.eqb_neq in E. contradiction.
    - destruct Op as (On & O). apply (opened_frame s i l' fs' (ino s) (opened s) I0); auto.
      + intros g Hg. right. split; [exact Hg|]. intros X. left. unfold has_fd in *. rewrite Hc. exact X.
      + unfold is_cfail. rewrite Hc. auto.
      + intros i' n j g X Hg Lg. destruct (TT _ _ _ X) as (Y & E & _). split; [exact Y|]. rewrite E in Lg. exact (Lb _ _ Lg).
  Qed.
End Temp.
