(** What follows from the invariant of the temporary files: what is loaded, what is left, what ends. *)
From Verif Require Import Base BaseLemmas SysModel SysProofs LoadModel TempModel TempBuf TempProofs TempSteps TempInv.

Section Temp.
  Variable cap ring : nat.
  Variable kinds : nat -> list bytes.
  Variable skips : nat -> bool.
  Variable work : nat -> list batch.
  Hypothesis Hring : 3 <= ring.
  Hypothesis Hkinds : forall i, kinds i <> [].
  Hypothesis Hprefix : forall i p, In p (kinds i) -> p <> [] /\ ~ In x00 p /\ length p + random_count + length suffix < cap.

  Notation K i := (length (kinds i)).
  Notation bat i n := (nth n (batches skips i (work i)) []).
  Notation text i n j := (raw_file (rows_of (bat i n) j)).
  Notation nm := (name ring kinds).
  Notation bf := (buf ring).
  Notation step := (sys_step ring kinds skips).
  Notation Inv := (inv cap ring kinds skips work).
  Notation Tok := (token kinds).
  Notation all i := (flat_map (expected kinds i) (batches skips i (work i))).
  Notation keeps := (step_keeps cap ring kinds skips work Hring Hkinds Hprefix).

  (** ** What is loaded *)
  Lemma loaded_prefix s i : Inv s -> exists rest, all i = loaded (lines s i) ++ rest.
  Proof.
    intros I. pose proof (proj1 (proj2 I) i) as (Pc & Pi & _ & Pt & Lo & _). pose proof (todo_len ring skips work Hring i _ Pt) as Hm.
    set (l := lines s i) in *. unfold loaded_ok in Lo. set (h := handed_i l) in *. set (B := batches skips i (work i)) in *.
    assert (A : in_load kinds i l = 0 \/ (h < length B /\ in_load kinds i l <= K i)).
    { unfold h, in_load, handed_i, pos_ins, handed_c, pos_cr in *. destruct (ins l); [left; reflexivity|..]; right; destruct (cr l); intuition lia. }
    assert (E : flat_map (expected kinds i) B = flat_map (expected kinds i) (firstn h B) ++ flat_map (expected kinds i) (skipn h B)).
    { rewrite <- flat_map_app, firstn_skipn. reflexivity. }
    rewrite E, Lo. destruct A as [->|[A1 A2]].
    - cbn [seq map]. rewrite app_nil_r. eauto.
    - destruct (skipn h B) as [|b r] eqn:Eb; [apply (f_equal (@length _)) in Eb; rewrite skipn_length in Eb; cbn in Eb; lia|].
      assert (Eh : nth h B [] = b).
      { rewrite <- (firstn_skipn h B), Eb, app_nth2 by (rewrite firstn_length; lia). rewrite firstn_length, Nat.min_l, Nat.sub_diag by lia. reflexivity. }
      rewrite Eh. set (k := in_load kinds i l) in *. exists (map (fun j => (j, raw_file (rows_of b j))) (seq k (K i - k)) ++ flat_map (expected kinds i) r).
      rewrite <- !app_assoc. f_equal. cbn [flat_map]. unfold expected at 1. replace (K i) with (k + (K i - k)) at 1 by lia. rewrite seq_app, map_app, <- app_assoc. reflexivity.
  Qed.

  Lemma loaded_all s i : Inv s -> finished (lines s i) = true -> loaded (lines s i) = all i.
  Proof.
    intros I F. pose proof (proj1 (proj2 I) i) as (Pc & Pi & _ & (pre & P1 & P2) & Lo & _). unfold finished in F.
    destruct (todo (lines s i)) eqn:E1; [|discriminate F]. destruct (cr (lines s i)) eqn:E2; try discriminate F. destruct (ins (lines s i)) eqn:E3; try discriminate F.
    unfold loaded_ok, handed_i, handed_c, in_load in Lo. rewrite E2, E3 in Lo. cbn [seq map] in Lo. rewrite app_nil_r in Lo. rewrite Lo. f_equal.
    change (batches skips i []) with (@nil batch) in P1. rewrite app_nil_r in P1. rewrite P1, <- P2. apply firstn_all.
  Qed.

  (** ** What is left *)
  Lemma finished_no_token i l n j : finished l = true -> ~ Tok i l n j.
  Proof.
    unfold finished, token, tok_cr, tok_ins, tok_rem. intros F (_ & H). destruct (todo l); [|discriminate F]. destruct (cr l); try discriminate F.
    destruct (ins l); try discriminate F. destruct (rem l); try discriminate F. tauto.
  Qed.
  Lemma finished_no_failure l : finished l = true -> failed l = false.
  Proof.
    unfold finished, failed. intros F. destruct (todo l); [|discriminate F]. destruct (cr l); try discriminate F.
    destruct (ins l); try discriminate F. destruct (rem l); try discriminate F. reflexivity.
  Qed.
  Lemma all_finished s : Inv s -> (forall i, finished (lines s i) = true) ->
    opened s = [] /\ forall p, In p (map fst (fs s)) -> In p (map fst (foreign s)).
  Proof.
    intros (_ & _ & _ & _ & _ & _ & Co & _ & (_ & O)) F. split.
    - destruct (opened s) as [|f op] eqn:E; [reflexivity|]. exfalso. destruct (O f (or_introl eq_refl)) as (_ & [(i & H)|((i & H) & _)]).
      + specialize (F i). unfold finished, has_fd in *. destruct (todo (lines s i)); [|discriminate F]. destruct (cr (lines s i)); try discriminate F; contradiction.
      + specialize (F i). unfold finished, is_cfail in *. destruct (todo (lines s i)); [|discriminate F]. destruct (cr (lines s i)); try discriminate F; contradiction.
    - intros p H. apply in_map_iff in H as ([q f] & E & H). cbn in E. subst q. destruct (Co p f H) as [(w & X)|[(i & n & j & X & _)|(i & X)]].
      + apply in_map_iff. exists (p, w). auto.
      + exfalso. exact (finished_no_token i _ n j (F i) X).
      + rewrite finished_no_failure in X by apply F. discriminate X.
  Qed.

  (** ** The files of others *)
  Lemma begin_frame s i l n b j : fs (begin_file ring kinds s i l n b j) = fs s /\ ino (begin_file ring kinds s i l n b j) = ino s /\
    opened (begin_file ring kinds s i l n b j) = opened s /\ foreign (begin_file ring kinds s i l n b j) = foreign s.
  Proof. unfold begin_file. destruct (prepare _ _ _); auto. Qed.
  Lemma foreign_step s a s' : step s a = Some s' ->
    foreign s' = match a with AForeign p w => (p, w) :: foreign s | _ => foreign s end.
  Proof.
    unfold sys_step. destruct (panicked s); [discriminate|]. destruct a as [i c|i good|i good|p w]; intros E.
    - unfold make_step in E. destruct (cr (lines s i)).
      + destruct (todo (lines s i)); [discriminate E|]. destruct (skips i && empty_batch _); injection E as <-; [reflexivity | apply begin_frame].
      + destruct (ok c); [|injection E as <-; reflexivity]. cbn [negb] in E. destruct (lookup _ _); injection E as <-; reflexivity.
      + injection E as <-. reflexivity.
      + destruct (string_to_byte_ptr _ _ _); [|injection E as <-; reflexivity|injection E as <-; reflexivity].
        destruct (ok c); [|injection E as <-; reflexivity]. cbn [negb] in E. destruct (lookup _ _); injection E as <-; reflexivity.
      + destruct cs as [|x cs]; [|injection E as <-; reflexivity]. destruct (ok c); [|injection E as <-; reflexivity]. cbn [negb] in E.
        destruct (_ <? _); injection E as <-; [rewrite (proj2 (proj2 (proj2 (begin_frame _ _ _ _ _ _)))); reflexivity | reflexivity].
      + destruct (ins (lines s i)); try discriminate E. injection E as <-. reflexivity.
      + discriminate E.
    - unfold ins_step in E. destruct (ins (lines s i)); try discriminate E.
      + destruct (lookup _ _); injection E as <-; reflexivity.
      + destruct (lookup _ _); [destruct good|]; injection E as <-; reflexivity.
      + destruct (rem (lines s i)); try discriminate E. injection E as <-. reflexivity.
    - unfold rem_step in E. destruct (rem (lines s i)); try discriminate E. injection E as <-. destruct (lookup _ _); [destruct good|]; reflexivity.
    - destruct (lookup p (fs s)); [discriminate E|]. injection E as <-. reflexivity.
  Qed.
  Lemma foreign_run l s p w : In (p, w) (foreign s) -> In (p, w) (foreign (run step s l)).
  Proof.
    revert s. induction l as [|a l IH]; intros s H; [exact H|]. rewrite run_cons. apply IH. unfold do. destruct (step s a) as [s'|] eqn:E; [|exact H].
    rewrite (foreign_step s a s' E). destruct a; try exact H. right. exact H.
  Qed.
  Lemma foreign_only l s p w : In (p, w) (foreign (run step s l)) -> In (p, w) (foreign s) \/ In (AForeign p w) l.
  Proof.
    revert s. induction l as [|a l IH]; intros s H; [left; exact H|]. rewrite run_cons in H. apply IH in H as [H|H]; [|right; right; exact H].
    unfold do in H. destruct (step s a) as [s'|] eqn:E; [|left; exact H]. rewrite (foreign_step s a s' E) in H. destruct a as [| | |q v]; try (left; exact H).
    destruct H as [H|H]; [injection H as <- <-; right; left; reflexivity | left; exact H].
  Qed.
  Lemma foreign_read s p w : Inv s -> In (p, w) (foreign s) -> read s p = Some w.
  Proof. intros (_ & _ & _ & _ & _ & Fo & _) H. destruct (Fo p w H) as ((f & Lf & Wf) & _). unfold read. rewrite Lf, Wf. reflexivity. Qed.

  (** ** A file that nobody knows any more *)
  Definition orphan (s : sys) (p w : bytes) (f : nat) : Prop :=
    lookup p (fs s) = Some f /\ nth f (ino s) [] = w /\ In f (opened s) /\ forall i, ~ has_fd (lines s i) f.
  Lemma no_fd_put s i l' f : (forall i, ~ has_fd (lines s i) f) -> ~ has_fd l' f -> forall s' : sys, lines s' = upd i l' (lines s) ->
    forall i', ~ has_fd (lines s' i') f.
  Proof. intros H H' s' E i'. rewrite E. unfold upd. destruct (i' =? i); auto. Qed.
  Lemma close_other f g op : f <> g -> In f op -> In f (close g op).
  Proof. intros N H. unfold close. apply filter_In. split; [exact H|]. apply negb_true_iff, Nat.eqb_neq. auto. Qed.
  Lemma lookup_fresh p q f g (l : list (bytes * nat)) : lookup p l = Some f -> lookup q l = None -> lookup p ((q, g) :: l) = Some f.
  Proof. intros H N. rewrite lookup_cons. cbn [fst snd]. destruct (beqb p q) eqn:E; [|exact H]. apply beqb_eq in E. congruence. Qed.
  Lemma orphan_begin s s0 i l n b j p w f : orphan s p w f -> fs s0 = fs s -> ino s0 = ino s -> lines s0 = lines s -> In f (opened s0) ->
    orphan (begin_file ring kinds s0 i l n b j) p w f.
  Proof.
    intros (A & B & C & D) E1 E2 E3 E4. destruct (begin_frame s0 i l n b j) as (F1 & F2 & F3 & _). unfold orphan. rewrite F1, F2, F3, E1, E2.
    split; [exact A|]. split; [exact B|]. split; [exact E4|]. unfold begin_file. destruct (prepare _ _ _).
    - intros i'. cbn [lines set_line]. rewrite E3. unfold upd. destruct (i' =? i); [intros H; exact H | apply D].
    - intros i'. cbn [lines panic]. rewrite E3. apply D.
    - intros i'. cbn [lines panic]. rewrite E3. apply D.
  Qed.
  Lemma orphan_step s a s' p w f : Inv s -> orphan s p w f -> step s a = Some s' -> orphan s' p w f.
  Proof.
    intros I O E. pose proof I as (P & L & (_ & _ & Fb) & T & _ & _ & _ & Fd & (_ & Op)). pose proof O as (O1 & O2 & O3 & O4).
    destruct (Op f O3) as (Bf & Q). assert (Ntok : forall i n j, Tok i (lines s i) n j -> lookup (nm i (lines s i) n j) (fs s) <> Some f).
    { destruct Q as [(i & X)|(_ & X)]; [exfalso; exact (O4 i X) | exact X]. }
    unfold sys_step in E. rewrite P in E. destruct a as [i c|i good|i good|q v].
    - pose proof (O4 i) as Oi. pose proof (L i) as (Pc & _). unfold make_step in E. destruct (cr (lines s i)) eqn:Ec.
      + destruct (todo (lines s i)); [discriminate E|]. destruct (skips i && empty_batch _); injection E as <-.
        * split; [exact O1|]. split; [exact O2|]. split; [exact O3|]. eapply no_fd_put; [exact O4 | | reflexivity]. intros X. exact X.
        * apply (orphan_begin s s); auto.
      + destruct (ok c); cbn [negb] in E.
        * destruct (lookup (cstring _) (fs s)) eqn:El; injection E as <-.
          -- split; [exact O1|]. split; [exact O2|]. split; [exact O3|]. eapply no_fd_put; [exact O4 | | reflexivity]. destruct (_ <? _); intros X; exact X.
          -- split; [apply lookup_fresh; assumption|]. cbn [fs ino opened set_line set_os]. split; [rewrite app_nth1 by exact Bf; exact O2|].
             split; [right; exact O3|]. eapply no_fd_put; [exact O4 | | reflexivity]. cbn [has_fd cr set_cr]. lia.
        * injection E as <-. split; [exact O1|]. split; [exact O2|]. split; [exact O3|]. eapply no_fd_put; [exact O4 | | reflexivity]. intros X; exact X.
      + injection E as <-. unfold has_fd in Oi. rewrite Ec in Oi. split; [exact O1|]. split; [exact O2|]. split; [cbn [opened set_line set_os]; apply close_other; auto|].
        eapply no_fd_put; [exact O4 | | reflexivity]. destruct (ok c); intros X; exact X.
      + unfold pos_cr in Pc. rewrite Ec in Pc. assert (X : Tok i (lines s i) n j) by (split; [apply Pc|]; left; unfold tok_cr; rewrite Ec; split; [reflexivity | lia]).
        destruct (T i n j X) as ((N1 & _) & g & Lg & _). rewrite (open_spec cap _ _ (same c) N1) in E. rewrite (proj2 (holds_name_facts cap _ _ N1)), Lg in E.
        destruct (ok c); injection E as <-.
        * split; [exact O1|]. split; [exact O2|]. split; [right; exact O3|]. eapply no_fd_put; [exact O4 | | reflexivity]. cbn [has_fd cr set_cr].
          intros ->. exact (Ntok i n j X Lg).
        * split; [exact O1|]. split; [exact O2|]. split; [exact O3|]. eapply no_fd_put; [exact O4 | | reflexivity]. intros Y; exact Y.
      + unfold has_fd in Oi. rewrite Ec in Oi. destruct cs as [|x cs].
        * destruct (ok c); cbn [negb] in E.
          -- destruct (_ <? _); injection E as <-.
             ++ apply (orphan_begin s); auto. cbn [opened set_os]. apply close_other; auto.
             ++ split; [exact O1|]. split; [exact O2|]. split; [cbn [opened set_line set_os]; apply close_other; auto|].
                eapply no_fd_put; [exact O4 | | reflexivity]. intros Y; exact Y.
          -- injection E as <-. split; [exact O1|]. split; [exact O2|]. split; [cbn [opened set_line set_os]; apply close_other; auto|].
             eapply no_fd_put; [exact O4 | | reflexivity]. intros Y; exact Y.
        * injection E as <-. split; [exact O1|]. cbn [fs ino opened set_line set_os]. split; [rewrite nth_set_nth_other by auto; exact O2|]. split; [exact O3|].
          eapply no_fd_put; [exact O4 | | reflexivity]. destruct (ok c); cbn [has_fd cr set_cr]; auto.
      + destruct (ins (lines s i)); try discriminate E. injection E as <-. split; [exact O1|]. split; [exact O2|]. split; [exact O3|].
        eapply no_fd_put; [exact O4 | | reflexivity]. intros Y; exact Y.
      + discriminate E.
    - pose proof (O4 i) as Oi. unfold ins_step in E. destruct (ins (lines s i)); try discriminate E.
      + destruct (lookup _ _); injection E as <-; (split; [exact O1|]; split; [exact O2|]; split; [exact O3|]; eapply no_fd_put; [exact O4 | | reflexivity]; exact Oi).
      + destruct (lookup _ _); [destruct good|]; injection E as <-;
          (split; [exact O1|]; split; [exact O2|]; split; [exact O3|]; eapply no_fd_put; [exact O4 | | reflexivity]; exact Oi).
      + destruct (rem (lines s i)); try discriminate E. injection E as <-.
        split; [exact O1|]; split; [exact O2|]; split; [exact O3|]; eapply no_fd_put; [exact O4 | | reflexivity]; exact Oi.
    - pose proof (O4 i) as Oi. pose proof (L i) as (_ & _ & Pr & _). unfold rem_step in E. destruct (rem (lines s i)) as [|n j bad|] eqn:Er; try discriminate E.
      unfold pos_rem in Pr. rewrite Er in Pr.
      assert (X : Tok i (lines s i) n j) by (split; [apply Pr|]; right; right; unfold tok_rem; rewrite Er; split; [reflexivity | lia]).
      destruct (T i n j X) as (_ & g & Lg & _). rewrite Lg in E. injection E as <-. destruct good.
      + split; [|split; [exact O2|]; split; [exact O3|]; eapply no_fd_put; [exact O4 | | reflexivity]; exact Oi]. cbn [fs set_line set_os]. rewrite lookup_unlink.
        destruct (beqb (nm i (lines s i) n j) p) eqn:Ep; [|exact O1]. apply beqb_eq in Ep. exfalso. apply (Ntok i n j X). congruence.
      + split; [exact O1|]; split; [exact O2|]; split; [exact O3|]; eapply no_fd_put; [exact O4 | | reflexivity]; exact Oi.
    - destruct (lookup q (fs s)) eqn:El; [discriminate E|]. injection E as <-. split; [apply lookup_fresh; assumption|]. cbn [fs ino opened lines].
      split; [rewrite app_nth1 by exact Bf; exact O2|]. split; [exact O3 | exact O4].
  Qed.
  Lemma orphan_run l s p w f : Inv s -> orphan s p w f -> orphan (run step s l) p w f.
  Proof.
    revert s. induction l as [|a l IH]; intros s I O; [exact O|]. rewrite run_cons. unfold do. destruct (step s a) as [s'|] eqn:E; [|apply IH; assumption].
    apply IH; [exact (keeps s a s' I E) | exact (orphan_step s a s' p w f I O E)].
  Qed.

  (** ** What ends *)
  Definition cost_file (b : batch) (j : nat) : nat := S max_attempts + 3 + length (chunks (rows_of b j)).
  Definition cost_files (i : nat) (b : batch) (k : nat) : nat := list_sum (map (cost_file b) (seq k (K i - k))).
  Definition weight_cr (i : nat) (c : creator) : nat :=
    match c with
    | CIdle | CFail _ => 0
    | CTry _ b j att => S (max_attempts - att) + 3 + length (chunks (rows_of b j)) + cost_files i b (S j) + (3 * K i + 2)
    | CClose1 _ b j _ => 3 + length (chunks (rows_of b j)) + cost_files i b (S j) + (3 * K i + 2)
    | COpen _ b j => 2 + length (chunks (rows_of b j)) + cost_files i b (S j) + (3 * K i + 2)
    | CWrite _ b j _ cs => 1 + length cs + cost_files i b (S j) + (3 * K i + 2)
    | CSend _ => 3 * K i + 2
    end.
  Definition weight_ins (i : nat) (x : inserter) : nat :=
    match x with IIdle | IFail _ _ => 0 | IChmod _ j => 2 * (K i - j) + 1 + K i | ILoad _ j => 2 * (K i - j) + K i | ISend _ => 1 + K i end.
  Definition weight_rem (i : nat) (x : remover) : nat := match x with RDo _ j _ => K i - j | _ => 0 end.
  Definition weight (i : nat) (l : line) : nat :=
    list_sum (map (fun b => 1 + cost_files i b 0 + (3 * K i + 2)) (todo l)) + weight_cr i (cr l) + weight_ins i (ins l) + weight_rem i (rem l).

  Lemma cost_files_next i b k : k < K i -> cost_files i b k = cost_file b k + cost_files i b (S k).
  Proof. intros H. unfold cost_files. replace (K i - k) with (S (K i - S k)) by lia. reflexivity. Qed.

  Lemma begin_weight s i l n b j : panicked (begin_file ring kinds s i l n b j) = false -> panicked s = false ->
    let l' := lines (begin_file ring kinds s i l n b j) i in
    weight i l' = list_sum (map (fun b => 1 + cost_files i b 0 + (3 * K i + 2)) (todo l)) + (cost_file b j + cost_files i b (S j) + (3 * K i + 2)) +
      weight_ins i (ins l) + weight_rem i (rem l).
  Proof.
    unfold begin_file. destruct (prepare _ _ _); cbn [panicked panic]; intros H Hs; try discriminate H.
    cbn [lines set_line]. unfold upd. rewrite Nat.eqb_refl. unfold weight. cbn [todo cr ins rem set_cr put_buf weight_cr]. unfold cost_file. rewrite Nat.sub_0_r. lia.
  Qed.

  Lemma weight_step s a s' i : Inv s -> step s a = Some s' -> if acts_on i a then weight i (lines s' i) < weight i (lines s i) else lines s' i = lines s i.
  Proof.
    intros I E. pose proof (proj1 (keeps s a s' I E)) as P'. pose proof (kinds_pos ring kinds Hring Hkinds i) as K0. pose proof (proj1 (proj2 I) i) as (Pc & Pi & Pr & _).
    pose proof (proj1 I) as P. unfold sys_step in E. rewrite P in E. destruct (acts_on i a) eqn:Ea.
    - destruct a as [i' c|i' good|i' good|q v]; try discriminate Ea; cbn [acts_on] in Ea; apply Nat.eqb_eq in Ea; subst i'.
      + unfold make_step in E. unfold pos_cr in Pc. destruct (cr (lines s i)) eqn:Ec.
        * destruct (todo (lines s i)) as [|b rest] eqn:Et; [discriminate E|]. destruct (skips i && empty_batch _); injection E as <-.
          -- cbn [lines set_line]. unfold upd. rewrite Nat.eqb_refl. unfold weight. cbn [todo cr ins rem]. rewrite Et, Ec. cbn [map list_sum fold_right]. unfold list_sum. lia.
          -- rewrite begin_weight by assumption. cbn [todo cr ins rem]. unfold weight. rewrite Et, Ec. cbn [map list_sum fold_right weight_cr].
             rewrite (cost_files_next i b 0 K0). unfold list_sum. lia.
        * destruct (ok c); cbn [negb] in E; [destruct (lookup (cstring _) (fs s))|]; injection E as <-; cbn [lines set_line set_os]; unfold upd; rewrite Nat.eqb_refl; unfold weight;
            cbn [todo cr ins rem set_cr put_buf]; rewrite Ec; [destruct (S att <? max_attempts) eqn:Ea; [apply Nat.ltb_lt in Ea|]| |]; cbn [weight_cr]; lia.
        * injection E as <-. cbn [lines set_line set_os]; unfold upd; rewrite Nat.eqb_refl; unfold weight; cbn [todo cr ins rem set_cr]; rewrite Ec.
          destruct (ok c); cbn [weight_cr]; lia.
        * destruct (string_to_byte_ptr _ _ _); [|injection E as <-; discriminate P'|injection E as <-; discriminate P'].
          destruct (ok c); cbn [negb] in E; [destruct (lookup (cstring _) (fs s))|]; injection E as <-; cbn [lines set_line set_os]; unfold upd; rewrite Nat.eqb_refl; unfold weight;
            cbn [todo cr ins rem set_cr put_buf]; rewrite Ec; cbn [weight_cr]; lia.
        * destruct cs as [|x cs].
          -- destruct (ok c); cbn [negb] in E.
             ++ destruct (S j <? K i) eqn:Ek; injection E as <-.
                ** apply Nat.ltb_lt in Ek. rewrite begin_weight by assumption. unfold weight. rewrite Ec. cbn [weight_cr length]. rewrite (cost_files_next i b (S j) Ek). lia.
                ** cbn [lines set_line set_os]; unfold upd; rewrite Nat.eqb_refl; unfold weight; cbn [todo cr ins rem set_cr]; rewrite Ec. cbn [weight_cr length]. lia.
             ++ injection E as <-. cbn [lines set_line set_os]; unfold upd; rewrite Nat.eqb_refl; unfold weight; cbn [todo cr ins rem set_cr]; rewrite Ec. cbn [weight_cr length]. lia.
          -- injection E as <-. cbn [lines set_line set_os]; unfold upd; rewrite Nat.eqb_refl; unfold weight; cbn [todo cr ins rem set_cr]; rewrite Ec.
             destruct (ok c); cbn [weight_cr length]; lia.
        * destruct (ins (lines s i)) eqn:Ei; try discriminate E. injection E as <-. cbn [lines set_line set_os]; unfold upd; rewrite Nat.eqb_refl; unfold weight.
          cbn [todo cr ins rem set_cr set_ins]; rewrite Ec, Ei. cbn [weight_cr weight_ins]. lia.
        * discriminate E.
      + unfold ins_step in E. unfold pos_ins in Pi. destruct (ins (lines s i)) eqn:Ei; try discriminate E.
        * destruct (lookup _ _); injection E as <-; cbn [lines set_line set_os]; unfold upd; rewrite Nat.eqb_refl; unfold weight; cbn [todo cr ins rem set_ins]; rewrite Ei;
            [destruct good|]; cbn [weight_ins]; lia.
        * destruct (lookup _ _); [destruct good|]; injection E as <-; cbn [lines set_line set_os]; unfold upd; rewrite Nat.eqb_refl; unfold weight; cbn [todo cr ins rem set_ins]; rewrite Ei;
            [destruct (S j <? K i) eqn:Ek; [apply Nat.ltb_lt in Ek|]| |]; cbn [weight_ins]; lia.
        * destruct (rem (lines s i)) eqn:Er; try discriminate E. injection E as <-. cbn [lines set_line set_os]; unfold upd; rewrite Nat.eqb_refl; unfold weight.
          cbn [todo cr ins rem set_ins set_rem]; rewrite Ei, Er. cbn [weight_ins weight_rem]. lia.
      + unfold rem_step in E. unfold pos_rem in Pr. destruct (rem (lines s i)) as [|n j bad|] eqn:Er; try discriminate E. injection E as <-.
        match goal with |- weight i (lines (set_line ?x _ ?y) i) < _ => replace (lines (set_line x i y) i) with y by (cbn [lines set_line]; unfold upd; rewrite Nat.eqb_refl; reflexivity) end.
        unfold weight. cbn [todo cr ins rem set_rem]. rewrite Er.
        destruct (S j <? K i) eqn:Ek; [apply Nat.ltb_lt in Ek|]; [|destruct (bad || _)]; cbn [weight_rem]; lia.
    - assert (U : forall i' l' (s0 : sys), (i' =? i) = false -> lines (set_line s0 i' l') i = lines s0 i).
      { intros i' l' s0 N. cbn [lines set_line]. unfold upd. rewrite Nat.eqb_sym, N. reflexivity. }
      assert (V : forall i' l' n b j (s0 : sys), (i' =? i) = false -> lines (begin_file ring kinds s0 i' l' n b j) i = lines s0 i).
      { intros i' l' n b j s0 N. unfold begin_file. destruct (prepare _ _ _); [apply U; exact N | reflexivity | reflexivity]. }
      destruct a as [i' c|i' good|i' good|q v]; cbn [acts_on] in Ea.
      + unfold make_step in E. destruct (cr (lines s i')).
        * destruct (todo (lines s i')); [discriminate E|]. destruct (skips i' && empty_batch _); injection E as <-; [apply U; exact Ea | apply V; exact Ea].
        * destruct (ok c); cbn [negb] in E; [destruct (lookup (cstring _) (fs s))|]; injection E as <-; (rewrite (U _ _ _ Ea); reflexivity).
        * injection E as <-. (rewrite (U _ _ _ Ea); reflexivity).
        * destruct (string_to_byte_ptr _ _ _); [|injection E as <-; reflexivity|injection E as <-; reflexivity].
          destruct (ok c); cbn [negb] in E; [destruct (lookup (cstring _) (fs s))|]; injection E as <-; (rewrite (U _ _ _ Ea); reflexivity).
        * destruct cs as [|x cs]; [|injection E as <-; (rewrite (U _ _ _ Ea); reflexivity)]. destruct (ok c); cbn [negb] in E; [|injection E as <-; (rewrite (U _ _ _ Ea); reflexivity)].
          destruct (_ <? _); injection E as <-; [(rewrite (V _ _ _ _ _ _ Ea); reflexivity) | (rewrite (U _ _ _ Ea); reflexivity)].
        * destruct (ins (lines s i')); try discriminate E. injection E as <-. (rewrite (U _ _ _ Ea); reflexivity).
        * discriminate E.
      + unfold ins_step in E. destruct (ins (lines s i')); try discriminate E.
        * destruct (lookup _ _); injection E as <-; (rewrite (U _ _ _ Ea); reflexivity).
        * destruct (lookup _ _); [destruct good|]; injection E as <-; (rewrite (U _ _ _ Ea); reflexivity).
        * destruct (rem (lines s i')); try discriminate E. injection E as <-; (rewrite (U _ _ _ Ea); reflexivity).
      + unfold rem_step in E. destruct (rem (lines s i')); try discriminate E. injection E as <-. rewrite (U _ _ _ Ea). destruct (lookup _ _); [destruct good|]; reflexivity.
      + destruct (lookup _ _); [discriminate E|]. injection E as <-. reflexivity.
  Qed.

  Lemma steps_bound i l : forall s, Inv s -> steps_of ring kinds skips i s l <= weight i (lines s i).
  Proof.
    induction l as [|a l IH]; intros s I; cbn [steps_of]; [lia|]. destruct (step s a) as [s'|] eqn:E; [|apply IH; exact I].
    pose proof (weight_step s a s' i I E) as W. specialize (IH s' (keeps s a s' I E)). destruct (acts_on i a); [lia|]. rewrite W in IH. lia.
  Qed.

  Definition moves (i : nat) (l : line) : Prop := failed l = false /\ finished l = false.
  Lemma can_step s i : Inv s -> moves i (lines s i) ->
    (forall c, step s (AMake i c) <> None) \/ (forall g, step s (AIns i g) <> None) \/ (forall g, step s (ARem i g) <> None).
  Proof.
    intros I (H1 & H2). unfold sys_step. rewrite (proj1 I). unfold failed, finished in *. destruct (rem (lines s i)) as [|n j bad|n] eqn:Er.
    - destruct (ins (lines s i)) as [|n j|n j|n|n j] eqn:Ei.
      + left. intros c. unfold make_step. destruct (cr (lines s i)) eqn:Ec.
        * destruct (todo (lines s i)); [discriminate H2|]. destruct (skips i && empty_batch _); discriminate.
        * destruct (ok c); cbn [negb]; [destruct (lookup _ _)|]; discriminate.
        * discriminate.
        * destruct (string_to_byte_ptr _ _ _); try discriminate. destruct (ok c); cbn [negb]; [destruct (lookup _ _)|]; discriminate.
        * destruct cs; [|discriminate]. destruct (ok c); cbn [negb]; [destruct (_ <? _)|]; discriminate.
        * rewrite Ei. discriminate.
        * discriminate H1.
      + right. left. intros g. unfold ins_step. rewrite Ei. destruct (lookup _ _); discriminate.
      + right. left. intros g. unfold ins_step. rewrite Ei. destruct (lookup _ _); [destruct g|]; discriminate.
      + right. left. intros g. unfold ins_step. rewrite Ei, Er. discriminate.
      + rewrite orb_true_r in H1. discriminate H1.
    - right. right. intros g. unfold rem_step. rewrite Er. discriminate.
    - rewrite orb_true_r in H1. discriminate H1.
  Qed.
  (** Whether a stage can move depends on its line only. *)
  Lemma step_local s s' i a : Inv s -> Inv s' -> lines s' i = lines s i -> acts_on i a = true -> step s a <> None -> step s' a <> None.
  Proof.
    intros I I' El Ea. unfold sys_step. rewrite (proj1 I), (proj1 I'). destruct a as [i' c|i' good|i' good|q v]; try discriminate Ea; cbn [acts_on] in Ea; apply Nat.eqb_eq in Ea; subst i'.
    - unfold make_step. rewrite El. destruct (cr (lines s i)).
      + destruct (todo (lines s i)); [auto|]. intros _. destruct (skips i && empty_batch _); discriminate.
      + intros _. destruct (ok c); cbn [negb]; [destruct (lookup _ _)|]; discriminate.
      + discriminate.
      + intros _. destruct (string_to_byte_ptr _ _ _); try discriminate. destruct (ok c); cbn [negb]; [destruct (lookup _ _)|]; discriminate.
      + intros _. destruct cs; [|discriminate]. destruct (ok c); cbn [negb]; [destruct (_ <? _)|]; discriminate.
      + destruct (ins (lines s i)); auto. discriminate.
      + auto.
    - unfold ins_step. rewrite El. destruct (ins (lines s i)); auto.
      + intros _. destruct (lookup _ _); discriminate.
      + intros _. destruct (lookup _ _); [destruct good|]; discriminate.
      + destruct (rem (lines s i)); auto. discriminate.
    - unfold rem_step. rewrite El. destruct (rem (lines s i)); auto. discriminate.
  Qed.

  (** Every stage of line [i] gets its turn again and again. *)
  Definition turns (i : nat) (f : nat -> action) : Prop :=
    forall n, (exists m c, n <= m /\ f m = AMake i c) /\ (exists m g, n <= m /\ f m = AIns i g) /\ (exists m g, n <= m /\ f m = ARem i g).

  Lemma line_ends files i f : NoDup (map fst files) -> turns i f ->
    exists n, let l := lines (run step (sys_start cap work files) (prefix f n)) i in finished l = true \/ failed l = true.
  Proof.
    intros Hn Ht. set (S0 := sys_start cap work files). set (st := fun n => run step S0 (prefix f n)).
    assert (I : forall n, Inv (st n)) by (intros n; apply run_keeps; assumption).
    assert (St : forall n, st (S n) = match step (st n) (f n) with Some s' => s' | None => st n end).
    { intros n. unfold st. cbn [prefix]. rewrite run_app. cbn [run fold_left]. reflexivity. }
    assert (One : forall n, lines (st (S n)) i = lines (st n) i \/ weight i (lines (st (S n)) i) < weight i (lines (st n) i)).
    { intros n. rewrite St. destruct (step (st n) (f n)) as [s'|] eqn:E; [|left; reflexivity]. pose proof (weight_step _ _ _ i (I n) E) as W. destruct (acts_on i (f n)); auto. }
    assert (Many : forall n k, lines (st (n + k)) i = lines (st n) i \/ weight i (lines (st (n + k)) i) < weight i (lines (st n) i)).
    { intros n k. induction k as [|k IH]; [rewrite Nat.add_0_r; left; reflexivity|]. rewrite Nat.add_succ_r.
      destruct (One (n + k)) as [->|X]; [exact IH|]. destruct IH as [E|Y]; [rewrite E in X; auto | right; lia]. }
    assert (Hit : forall n m, n <= m -> acts_on i (f m) = true -> step (st n) (f m) <> None ->
      exists m', weight i (lines (st m') i) < weight i (lines (st n) i)).
    { intros n m Hm Ea En. destruct (Many n (m - n)) as [E|W]; [|eauto]. replace (n + (m - n)) with m in E by lia.
      pose proof (step_local (st n) (st m) i (f m) (I n) (I m) E Ea En) as X. exists (S m). rewrite St. destruct (step (st m) (f m)) as [s'|] eqn:Es; [|contradiction].
      pose proof (weight_step _ _ _ i (I m) Es) as W. rewrite Ea in W. rewrite E in W. exact W. }
    assert (G : forall w n, weight i (lines (st n) i) <= w -> exists n', finished (lines (st n') i) = true \/ failed (lines (st n') i) = true).
    { induction w as [w IH] using lt_wf_ind. intros n Hw. destruct (finished (lines (st n) i)) eqn:E1; [eauto|]. destruct (failed (lines (st n) i)) eqn:E2; [eauto|].
      assert (X : exists m', weight i (lines (st m') i) < weight i (lines (st n) i)).
      { destruct (Ht n) as ((m1 & c1 & L1 & F1) & (m2 & c2 & L2 & F2) & (m3 & c3 & L3 & F3)).
        destruct (can_step (st n) i (I n) (conj E2 E1)) as [C|[C|C]]; [apply (Hit n m1 L1) | apply (Hit n m2 L2) | apply (Hit n m3 L3)];
          try (rewrite ?F1, ?F2, ?F3; cbn [acts_on]; apply Nat.eqb_refl); rewrite ?F1, ?F2, ?F3; apply C. }
      destruct X as (m' & X). apply (IH (weight i (lines (st m') i))) with (n := m'); lia. }
    exact (G _ 0 (le_n _)).
  Qed.

  (** ** Why a stage fails *)
  Definition ins_failed (l : line) : Prop := match ins l with IFail _ _ => True | _ => False end.
  Definition rem_failed (l : line) : Prop := match rem l with RFail _ => True | RDo _ _ bad => bad = true | _ => False end.
  Lemma begin_stages s i l n b j : panicked (begin_file ring kinds s i l n b j) = false ->
    ins (lines (begin_file ring kinds s i l n b j) i) = ins l /\ rem (lines (begin_file ring kinds s i l n b j) i) = rem l.
  Proof.
    unfold begin_file. destruct (prepare _ _ _); cbn [panicked panic]; intros H; try discriminate H. cbn [lines set_line]. unfold upd. rewrite Nat.eqb_refl. auto.
  Qed.
  Lemma cause_step s a s' i : Inv s -> step s a = Some s' ->
    (ins_failed (lines s' i) -> ins_failed (lines s i) \/ a = AIns i false) /\ (rem_failed (lines s' i) -> rem_failed (lines s i) \/ a = ARem i false).
  Proof.
    intros I E. pose proof (weight_step s a s' i I E) as W. destruct (acts_on i a) eqn:Ea; [clear W|rewrite W; auto].
    pose proof (proj1 (keeps s a s' I E)) as P'. pose proof (proj1 (proj2 (proj2 (proj2 I)))) as T. pose proof (proj1 (proj2 I) i) as (Pc & Pi & Pr & _).
    unfold sys_step in E. rewrite (proj1 I) in E. destruct a as [i' c|i' good|i' good|q v]; try discriminate Ea; cbn [acts_on] in Ea; apply Nat.eqb_eq in Ea; subst i'.
    - assert (X : (ins (lines s' i) = ins (lines s i) \/ ins (lines s i) = IIdle /\ ~ ins_failed (lines s' i)) /\ rem (lines s' i) = rem (lines s i)).
      { unfold make_step in E. destruct (cr (lines s i)).
        - destruct (todo (lines s i)); [discriminate E|]. destruct (skips i && empty_batch _); injection E as <-.
          + cbn [lines set_line]. unfold upd. rewrite Nat.eqb_refl. auto.
          + destruct (begin_stages _ _ _ _ _ _ P') as [-> ->]. auto.
        - destruct (ok c); cbn [negb] in E; [destruct (lookup (cstring _) (fs s))|]; injection E as <-; cbn [lines set_line set_os]; unfold upd; rewrite Nat.eqb_refl; auto.
        - injection E as <-. cbn [lines set_line set_os]; unfold upd; rewrite Nat.eqb_refl; auto.
        - destruct (string_to_byte_ptr _ _ _); [|injection E as <-; discriminate P'|injection E as <-; discriminate P'].
          destruct (ok c); cbn [negb] in E; [destruct (lookup (cstring _) (fs s))|]; injection E as <-; cbn [lines set_line set_os]; unfold upd; rewrite Nat.eqb_refl; auto.
        - destruct cs as [|x cs]; [|injection E as <-; cbn [lines set_line set_os]; unfold upd; rewrite Nat.eqb_refl; auto].
          destruct (ok c); cbn [negb] in E; [|injection E as <-; cbn [lines set_line set_os]; unfold upd; rewrite Nat.eqb_refl; auto].
          destruct (_ <? _); injection E as <-; [|cbn [lines set_line set_os]; unfold upd; rewrite Nat.eqb_refl; auto].
          destruct (begin_stages _ _ _ _ _ _ P') as [-> ->]. auto.
        - destruct (ins (lines s i)) eqn:Ei; try discriminate E. injection E as <-. cbn [lines set_line set_os]; unfold upd; rewrite Nat.eqb_refl.
          split; [right; split; [reflexivity | intros X; exact X] | reflexivity].
        - discriminate E. }
      destruct X as [X1 X2]. split; intros H; left; [|unfold rem_failed in *; rewrite X2 in H; exact H].
      destruct X1 as [X1|[_ X1]]; [unfold ins_failed in *; rewrite X1 in H; exact H | contradiction].
    - unfold ins_step in E. unfold pos_ins in Pi. destruct (ins (lines s i)) as [|n j|n j|n|n j] eqn:Ei; try discriminate E.
      + destruct (T i n j) as (_ & f & Lf & _); [split; [apply Pi|]; right; left; unfold tok_ins; rewrite Ei; reflexivity|]. rewrite Lf in E. injection E as <-.
        cbn [lines set_line set_os]; unfold upd; rewrite Nat.eqb_refl. unfold ins_failed, rem_failed. cbn [ins rem set_ins]. destruct good; split; intros H; auto. contradiction.
      + destruct (T i n j) as (_ & f & Lf & _); [split; [apply Pi|]; right; left; unfold tok_ins; rewrite Ei; reflexivity|]. rewrite Lf in E.
        destruct good; injection E as <-; cbn [lines set_line set_os]; unfold upd; rewrite Nat.eqb_refl; unfold ins_failed, rem_failed; cbn [ins rem set_ins]; split; intros H; auto.
        destruct (S j <? K i); contradiction.
      + destruct (rem (lines s i)) eqn:Er; try discriminate E. injection E as <-. cbn [lines set_line set_os]; unfold upd; rewrite Nat.eqb_refl.
        unfold ins_failed, rem_failed. cbn [ins rem set_ins set_rem]. split; intros H; [contradiction | discriminate H].
    - unfold rem_step in E. unfold pos_rem in Pr. destruct (rem (lines s i)) as [|n j bad|n] eqn:Er; try discriminate E.
      destruct (T i n j) as (_ & f & Lf & _); [split; [apply Pr|]; right; right; unfold tok_rem; rewrite Er; split; [reflexivity | lia]|]. rewrite Lf in E. injection E as <-.
      match goal with |- context [set_line ?x i ?y] => replace (lines (set_line x i y) i) with y by (cbn [lines set_line]; unfold upd; rewrite Nat.eqb_refl; reflexivity) end.
      unfold ins_failed, rem_failed. cbn [ins rem set_rem]. rewrite Er. split; [auto|]. intros H. destruct good; [|right; reflexivity]. left. rewrite orb_false_r in H.
      destruct (S j <? K i); [exact H|]. destruct bad; [reflexivity | contradiction].
  Qed.
  Lemma cause_run i l : forall s, Inv s -> let t := run step s l in
    (ins_failed (lines t i) -> ins_failed (lines s i) \/ In (AIns i false) l) /\ (rem_failed (lines t i) -> rem_failed (lines s i) \/ In (ARem i false) l).
  Proof.
    induction l as [|a l IH]; intros s I t; [split; intros H; left; exact H|]. unfold t. rewrite run_cons. unfold do. destruct (step s a) as [s'|] eqn:E.
    - destruct (IH s' (keeps s a s' I E)) as [A B]. destruct (cause_step s a s' i I E) as [A' B']. cbn [In]. split; intros H.
      + destruct (A H) as [X|X]; [destruct (A' X) as [Y|Y]; auto | auto].
      + destruct (B H) as [X|X]; [destruct (B' X) as [Y|Y]; auto | auto].
    - destruct (IH s I) as [A B]. cbn [In]. split; intros H; [destruct (A H) | destruct (B H)]; auto.
  Qed.
End Temp.

(** ** Names *)
Lemma map_nth_inj (d1 d2 : list nat) : length d1 = random_count -> length d2 = random_count ->
  (forall k, k < random_count -> nth k d1 0 < length char_map) -> (forall k, k < random_count -> nth k d2 0 < length char_map) ->
  random_part d1 = random_part d2 -> d1 = d2.
Proof.
  intros L1 L2 H1 H2 E. apply (nth_ext d1 d2 0 0); [congruence|]. intros k Hk. rewrite L1 in Hk.
  assert (X : nth k (random_part d1) x00 = nth k (random_part d2) x00) by (rewrite E; reflexivity).
  unfold random_part in X.
  assert (G : forall d, nth k (map (fun i => nth (nth i d 0 mod length char_map) char_map x00) (seq 0 random_count)) x00 = nth (nth k d 0 mod length char_map) char_map x00).
  { intros d. rewrite (nth_indep _ _ (nth (nth 0 d 0 mod length char_map) char_map x00)) by (rewrite map_length, seq_length; exact Hk).
    rewrite (map_nth (fun i => nth (nth i d 0 mod length char_map) char_map x00)), seq_nth by exact Hk. reflexivity. }
  rewrite !G in X. rewrite !Nat.mod_small in X by auto.
  assert (N : NoDup char_map). { apply (NoDup_count_occ' Byte.byte_eq_dec). intros x Hx. cbn in Hx. intuition (subst; reflexivity). }
  apply (NoDup_nth char_map x00); auto.
Qed.
