(** The ordered spin lock, used once. *)
From Verif Require Import Base BaseLemmas BatchProofs SysModel SysProofs SyncModel.

Section Spin.
  Variable n : nat.

  (** The workers when those before [w] are done and the others wait; [mid] is the state of worker [w] itself. *)
  Definition wks (w : nat) (mid : list (nat * bool)) : list (nat * bool) :=
    repeat (0, false) w ++ mid ++ repeat (1, false) (n - w - length mid).

  Definition starter_inv (s : spin) (p : starter) : Prop :=
    match p with
    | Storing w => w <= n /\ finished s = pred_id w /\ wk s = wks w [] /\ entered s = seq 0 w
    | Spinning w => w < n /\ active s = Some w /\
        ((finished s = pred_id w /\ wk s = wks w [(1, false)] /\ entered s = seq 0 w) \/
         (finished s = pred_id w /\ wk s = wks w [(0, true)] /\ entered s = seq 0 (S w)) \/
         (finished s = Some w /\ wk s = wks w [(0, false)] /\ entered s = seq 0 (S w)))
    end.

  Definition spin_inv (s : spin) : Prop :=
    (to_start s = 1 /\ waiting s = false /\ starters s = [] /\ active s = None /\ finished s = None /\
     wk s = wks 0 [] /\ entered s = []) \/
    (to_start s = 0 /\ exists p, starters s = [p] /\ starter_inv s p /\
       (match p with Storing w => active s = pred_id w | _ => True end) /\
       (waiting s = false -> finished s = pred_id n)).

  Lemma oeqb_eq a b : oeqb a b = true <-> a = b.
  Proof.
    destruct a as [x|], b as [y|]; cbn; try (split; congruence). rewrite Nat.eqb_eq. split; [intros ->; reflexivity | congruence].
  Qed.

  Lemma wks_length w mid : w + length mid <= n -> length (wks w mid) = n.
  Proof. intros H. unfold wks. rewrite !app_length, !repeat_length. lia. Qed.

  Lemma wks_nth w mid i : w + length mid <= n ->
    nth_error (wks w mid) i = if i <? w then Some (0, false) else if i <? w + length mid then nth_error mid (i - w)
                              else if i <? n then Some (1, false) else None.
  Proof.
    intros H. unfold wks. destruct (Nat.ltb_spec i w) as [Hi|Hi].
    - rewrite nth_error_app1 by (rewrite repeat_length; exact Hi). apply nth_error_repeat. exact Hi.
    - rewrite nth_error_app2 by (rewrite repeat_length; exact Hi). rewrite repeat_length.
      destruct (Nat.ltb_spec i (w + length mid)) as [Hm|Hm]; [apply nth_error_app1; lia|].
      rewrite nth_error_app2 by lia. destruct (Nat.ltb_spec i n) as [Hn|Hn]; [apply nth_error_repeat; lia|].
      apply nth_error_None. rewrite repeat_length. lia.
  Qed.

  Lemma set_nth_app_r {A} (l1 l2 : list A) i x : set_nth (length l1 + i) x (l1 ++ l2) = l1 ++ set_nth i x l2.
  Proof. induction l1 as [|y l1 IH]; cbn; [reflexivity|]. f_equal. exact IH. Qed.

  Lemma wks_set w a b : w < n -> set_nth w b (wks w [a]) = wks w [b].
  Proof.
    intros H. unfold wks. cbn [app length].
    pose proof (set_nth_app_r (repeat (0, false) w) (a :: repeat (1, false) (n - w - 1)) 0 b) as E.
    rewrite repeat_length, Nat.add_0_r in E. exact E.
  Qed.

  Lemma wks_open w : w < n -> wks w [] = wks w [(1, false)].
  Proof.
    intros H. unfold wks. cbn [app length]. f_equal. replace (n - w - 0) with (S (n - w - 1)) by lia. reflexivity.
  Qed.
  Lemma wks_close w : w < n -> wks w [(0, false)] = wks (S w) [].
  Proof.
    intros H. unfold wks. cbn [app length]. replace (n - S w - 0) with (n - w - 1) by lia.
    replace (repeat (0, false) (S w)) with (repeat (0, false) w ++ [(0, false)]); [rewrite <- app_assoc; reflexivity|].
    clear. induction w as [|w IH]; [reflexivity|]. cbn in *. f_equal. exact IH.
  Qed.

  Lemma pred_id_neq w : pred_id w <> Some w.
  Proof. destruct w; cbn; [discriminate|]. intros E. injection E as E. lia. Qed.
  Lemma pred_id_inj a b : pred_id a = pred_id b -> a = b.
  Proof. destruct a, b; cbn; congruence. Qed.

  Lemma spin_inv_start : spin_inv (spin_start n 1).
  Proof. left. unfold spin_start, wks. cbn. rewrite Nat.sub_0_r. repeat split. replace (n - 0) with n by lia. reflexivity. Qed.

  (** Number of steps left. *)
  Definition starter_left (p : starter) : nat := match p with Storing w => 2 * (n - w) | Spinning w => 2 * (n - w) - 1 end.
  Definition worker_left (x : nat * bool) : nat := 2 * fst x + (if snd x then 1 else 0).
  Definition spin_left (s : spin) : nat :=
    (2 * n + 2) * to_start s + (if waiting s then 1 else 0) + list_sum (map starter_left (starters s)) + list_sum (map worker_left (wk s)).

  Lemma left_set w a b : w < n -> worker_left b < worker_left a ->
    list_sum (map worker_left (wks w [b])) < list_sum (map worker_left (wks w [a])).
  Proof. intros Hw Hab. unfold wks. cbn [app length]. rewrite !map_app, !list_sum_app. cbn [map list_sum fold_right]. lia. Qed.

  Lemma spin_step_inv s a s' : spin_inv s -> spin_step n s a = Some s' -> spin_inv s' /\ spin_left s' < spin_left s.
  Proof.
    intros HI E. destruct a as [|k|i]; cbn [spin_step] in E.
    - (* main *)
      destruct (waiting s) eqn:Ew.
      + destruct (oeqb (finished s) (pred_id n)) eqn:Ef; [|discriminate E]. injection E as <-. apply oeqb_eq in Ef.
        destruct HI as [(_ & Hw & _)|(Ht & p & Hs & Hp & Ha & Hw)]; [congruence|]. split.
        * right. split; [exact Ht|]. exists p. split; [exact Hs|]. split; [destruct p; exact Hp|]. split; [exact Ha|]. intros _. exact Ef.
        * unfold spin_left. cbn [to_start waiting starters wk]. rewrite Ew. lia.
      + destruct HI as [(Ht & _ & Hs & Ha & Hf & Hk & He)|(Ht & p & Hs & Hp & Ha & Hw)].
        * rewrite Ht in E. injection E as <-. split.
          -- right. cbn. split; [reflexivity|]. exists (Storing 0). rewrite Hs. split; [reflexivity|]. cbn. split.
             ++ split; [lia|]. split; [exact Hf|]. split; [exact Hk | exact He].
             ++ split; [exact Ha | discriminate].
          -- unfold spin_left. cbn [to_start waiting starters wk]. rewrite Ht, Ew, Hs. cbn [app map starter_left list_sum fold_right]. lia.
        * rewrite Ht in E. discriminate E.
    - (* starter *)
      destruct (nth_error (starters s) k) as [p|] eqn:Ep; [|discriminate E].
      destruct HI as [(_ & _ & Hs & _)|(Ht & q & Hs & Hp & Ha & Hw)]; [rewrite Hs in Ep; destruct k; discriminate Ep|].
      rewrite Hs in Ep. destruct k as [|k]; [|cbn in Ep; destruct k; discriminate Ep]. injection Ep as ->.
      destruct p as [w|w].
      + destruct (Nat.ltb_spec w n) as [Hwn|Hwn]; [|discriminate E]. injection E as <-. destruct Hp as (_ & Hf & Hk & He). split.
        * right. cbn. split; [exact Ht|]. exists (Spinning w). rewrite Hs. split; [reflexivity|]. cbn. split.
          -- split; [exact Hwn|]. split; [reflexivity|]. left. split; [exact Hf|]. split; [rewrite Hk; apply wks_open; exact Hwn | exact He].
          -- split; [exact I | exact Hw].
        * unfold spin_left. cbn [to_start waiting starters wk]. rewrite Hs. cbn [set_nth map starter_left list_sum fold_right]. lia.
      + destruct (oeqb (finished s) (Some w)) eqn:Ef; [|discriminate E]. injection E as <-. apply oeqb_eq in Ef.
        destruct Hp as (Hwn & Hact & Hc). destruct Hc as [(Hf & _)|[(Hf & _)|(Hf & Hk & He)]];
          [rewrite Ef in Hf; symmetry in Hf; apply pred_id_neq in Hf; destruct Hf..|]. split.
        * right. cbn. split; [exact Ht|]. exists (Storing (S w)). rewrite Hs. split; [reflexivity|]. cbn. split.
          -- split; [lia|]. split; [exact Hf|]. split; [rewrite Hk; apply wks_close; exact Hwn | exact He].
          -- split; [exact Hact | exact Hw].
        * unfold spin_left. cbn [to_start waiting starters wk]. rewrite Hs. cbn [set_nth map starter_left list_sum fold_right]. lia.
    - (* worker *)
      destruct (nth_error (wk s) i) as [[r [|]]|] eqn:Ei; [| |discriminate E].
      + assert (E' : s' = {| active := active s; finished := Some i; starters := starters s; to_start := to_start s; waiting := waiting s;
                  wk := set_nth i (r, false) (wk s); entered := entered s |}) by (destruct r; injection E as <-; reflexivity).
        clear E. subst s'. destruct HI as [(_ & _ & _ & _ & _ & Hk & _)|(Ht & p & Hs & Hp & Ha & Hw)].
        { rewrite Hk, wks_nth in Ei by (cbn; lia). cbn [length Nat.add] in Ei. destruct (i <? 0); [discriminate Ei|]. destruct (i <? n); discriminate Ei. }
        destruct p as [w|w].
        { destruct Hp as (Hwn & Hf & Hk & He). rewrite Hk, wks_nth in Ei by (cbn; lia). cbn [length] in Ei. rewrite Nat.add_0_r in Ei.
          destruct (i <? w); [discriminate Ei|]. destruct (i <? n); discriminate Ei. }
        destruct Hp as (Hwn & Hact & Hc).
        assert (Hmid : forall x, wk s = wks w [x] -> i = w /\ x = (r, true)).
        { intros x Hk. rewrite Hk, wks_nth in Ei by (cbn; lia). cbn [length] in Ei. destruct (Nat.ltb_spec i w); [discriminate Ei|].
          destruct (Nat.ltb_spec i (w + 1)); [|destruct (i <? n); discriminate Ei]. assert (i = w) by lia. subst i.
          rewrite Nat.sub_diag in Ei. cbn in Ei. injection Ei as ->. split; reflexivity. }
        destruct Hc as [(Hf & Hk & He)|[(Hf & Hk & He)|(Hf & Hk & He)]]; destruct (Hmid _ Hk) as [-> Ex]; try discriminate Ex.
        injection Ex as <-. split.
        * right. cbn. split; [exact Ht|]. exists (Spinning w). split; [exact Hs|]. cbn. split.
          -- split; [exact Hwn|]. split; [exact Hact|]. right. right. split; [reflexivity|]. split; [rewrite Hk; apply wks_set; exact Hwn | exact He].
          -- split; [exact I|]. intros Hwait. specialize (Hw Hwait). rewrite Hf in Hw. apply pred_id_inj in Hw. lia.
        * unfold spin_left. cbn [to_start waiting starters wk]. rewrite Hk, wks_set by exact Hwn.
          pose proof (left_set w (0, true) (0, false) Hwn ltac:(cbn; lia)). lia.
      + destruct r as [|r]; [discriminate E|]. destruct (oeqb (active s) (Some i)) eqn:Eact; [|discriminate E]. apply oeqb_eq in Eact.
        injection E as <-. destruct HI as [(_ & _ & _ & Ha & _)|(Ht & p & Hs & Hp & Ha & Hw)]; [congruence|].
        destruct p as [w|w].
        { destruct Hp as (Hwn & Hf & Hk & He). rewrite Ha in Eact. destruct w as [|w]; [discriminate Eact|]. cbn in Eact. injection Eact as ->.
          rewrite Hk, wks_nth in Ei by (cbn; lia). destruct (Nat.ltb_spec i (S i)); [discriminate Ei | lia]. }
        destruct Hp as (Hwn & Hact & Hc). rewrite Hact in Eact. injection Eact as <-.
        assert (Hmid : forall x, wk s = wks w [x] -> x = (S r, false)).
        { intros x Hk. rewrite Hk, wks_nth in Ei by (cbn; lia). cbn [length] in Ei. destruct (Nat.ltb_spec w w); [lia|].
          destruct (Nat.ltb_spec w (w + 1)); [|lia]. rewrite Nat.sub_diag in Ei. cbn in Ei. injection Ei as ->. reflexivity. }
        destruct Hc as [(Hf & Hk & He)|[(Hf & Hk & He)|(Hf & Hk & He)]]; pose proof (Hmid _ Hk) as Ex; try discriminate Ex.
        injection Ex as <-. split.
        * right. cbn. split; [exact Ht|]. exists (Spinning w). split; [exact Hs|]. cbn. split.
          -- split; [exact Hwn|]. split; [exact Hact|]. right. left. split; [exact Hf|]. split; [rewrite Hk; apply wks_set; exact Hwn|].
             rewrite He. symmetry. apply (seq_S w 0).
          -- split; [exact I | exact Hw].
        * unfold spin_left. cbn [to_start waiting starters wk]. rewrite Hk, wks_set by exact Hwn.
          pose proof (left_set w (1, false) (0, true) Hwn ltac:(cbn; lia)). lia.
  Qed.

  Definition spin_done (s : spin) : Prop := to_start s = 0 /\ waiting s = false /\ wk s = repeat (0, false) n /\ entered s = seq 0 n.

  Lemma spin_progress s : spin_inv s -> (spin_done s /\ stuck (spin_step n) s) \/ exists a, spin_step n s a <> None.
  Proof.
    intros HI. pose proof HI as HI0. destruct HI as [(Ht & Hw & Hs & Ha & Hf & Hk & He)|(Ht & p & Hs & Hp & Ha & Hw)].
    { right. exists AMain. cbn. rewrite Hw, Ht. discriminate. }
    destruct p as [w|w].
    - destruct Hp as (Hwn & Hf & Hk & He). destruct (Nat.ltb_spec w n) as [Hlt|Hge].
      { right. exists (AStarter 0). cbn [spin_step]. rewrite Hs. cbn [nth_error]. destruct (Nat.ltb_spec w n); [discriminate | lia]. }
      assert (w = n) by lia. subst w. destruct (waiting s) eqn:Ew.
      { right. exists AMain. cbn. rewrite Ew, Hf. replace (oeqb (pred_id n) (pred_id n)) with true; [discriminate|].
        symmetry. apply oeqb_eq. reflexivity. }
      left. split.
      + split; [exact Ht|]. split; [exact Ew|]. split; [|exact He]. rewrite Hk. unfold wks. cbn. rewrite Nat.sub_diag. cbn. apply app_nil_r.
      + intros a. destruct (spin_step n s a) as [s'|] eqn:E; [|reflexivity]. exfalso.
        destruct a as [|k|i]; cbn [spin_step] in E.
        * rewrite Ew, Ht in E. discriminate E.
        * rewrite Hs in E. destruct k as [|k]; [cbn [nth_error] in E|cbn in E; destruct k; discriminate E].
          destruct (Nat.ltb_spec n n); [lia | discriminate E].
        * rewrite Hk, wks_nth in E by (cbn; lia). destruct (Nat.ltb_spec i n); [discriminate E|]. cbn [length] in E. rewrite Nat.add_0_r in E.
          destruct (Nat.ltb_spec i n); [lia | discriminate E].
    - right. destruct Hp as (Hwn & Hact & Hc).
      assert (Hn : forall x, wk s = wks w [x] -> nth_error (wk s) w = Some x).
      { intros x Hk. rewrite Hk, wks_nth by (cbn; lia). cbn [length]. destruct (Nat.ltb_spec w w); [lia|].
        destruct (Nat.ltb_spec w (w + 1)); [|lia]. rewrite Nat.sub_diag. reflexivity. }
      destruct Hc as [(Hf & Hk & He)|[(Hf & Hk & He)|(Hf & Hk & He)]].
      + exists (AWorker w). cbn [spin_step]. rewrite (Hn _ Hk), Hact. cbn [oeqb]. rewrite Nat.eqb_refl. discriminate.
      + exists (AWorker w). cbn [spin_step]. rewrite (Hn _ Hk). discriminate.
      + exists (AStarter 0). cbn [spin_step]. rewrite Hs. cbn [nth_error]. rewrite Hf. cbn [oeqb]. rewrite Nat.eqb_refl. discriminate.
  Qed.

  Lemma spin_run_inv l : spin_inv (run (spin_step n) (spin_start n 1) l).
  Proof. apply run_inv; [|apply spin_inv_start]. intros s a s' H E. exact (proj1 (spin_step_inv s a s' H E)). Qed.

  Lemma spin_order l : exists k, entered (run (spin_step n) (spin_start n 1) l) = seq 0 k.
  Proof.
    pose proof (spin_run_inv l) as HI. destruct HI as [(_ & _ & _ & _ & _ & _ & He)|(_ & p & _ & Hp & _)]; [exists 0; exact He|].
    destruct p as [w|w].
    - exists w. apply Hp.
    - destruct Hp as (_ & _ & [(_ & _ & He)|[(_ & _ & He)|(_ & _ & He)]]); eexists; exact He.
  Qed.

  Lemma spin_exclusive l i j : let s := run (spin_step n) (spin_start n 1) l in inside s i -> inside s j -> i = j.
  Proof.
    intros s [r Hi] [r' Hj]. pose proof (spin_run_inv l) as HI. fold s in HI. clearbody s.
    assert (G : forall w x k rr, w < n -> wk s = wks w [x] -> nth_error (wk s) k = Some (rr, true) -> k = w).
    { intros w x k rr Hw Hk E. rewrite Hk, wks_nth in E by (cbn; lia). cbn [length] in E. destruct (Nat.ltb_spec k w); [discriminate E|].
      destruct (Nat.ltb_spec k (w + 1)); [lia|]. destruct (k <? n); discriminate E. }
    assert (G0 : forall w k rr, w <= n -> wk s = wks w [] -> nth_error (wk s) k = Some (rr, true) -> False).
    { intros w k rr Hw Hk E. rewrite Hk, wks_nth in E by (cbn; lia). cbn [length] in E. rewrite Nat.add_0_r in E. destruct (Nat.ltb_spec k w); [discriminate E|].
      destruct (k <? n); discriminate E. }
    destruct HI as [(_ & _ & _ & _ & _ & Hk & _)|(_ & p & _ & Hp & _)]; [destruct (G0 0 i r ltac:(lia) Hk Hi)|].
    destruct p as [w|w].
    - destruct Hp as (Hwn & _ & Hk & _). destruct (G0 w i r Hwn Hk Hi).
    - destruct Hp as (Hwn & _ & Hc). destruct Hc as [(_ & Hk & _)|[(_ & Hk & _)|(_ & Hk & _)]];
        rewrite (G w _ i r Hwn Hk Hi), (G w _ j r' Hwn Hk Hj); reflexivity.
  Qed.

  Lemma spin_finishes f : fair f -> exists m, spin_done (run (spin_step n) (spin_start n 1) (prefix f m)).
  Proof.
    intros Hf.
    destruct (fair_finishes (spin_step n) spin_inv (fun s a s' H E => proj1 (spin_step_inv s a s' H E))
                (fun s' s => spin_left s' < spin_left s) (Wf_nat.well_founded_ltof spin spin_left)
                (fun s a s' H E => proj2 (spin_step_inv s a s' H E))) with (f := f) (s := spin_start n 1) as [m Hm].
    - intros s Hs. destruct (spin_progress s Hs) as [[_ H]|H]; [left; exact H | right; exact H].
    - apply spin_inv_start.
    - exact Hf.
    - exists m. destruct (spin_progress _ (spin_run_inv (prefix f m))) as [[H _]|[a Ha]]; [exact H|]. destruct (Ha (Hm a)).
  Qed.
End Spin.
