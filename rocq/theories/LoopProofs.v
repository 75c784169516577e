(** The update loop of the map server. *)
From Verif Require Import Base BaseLemmas BatchProofs SysModel SysProofs SyncModel.

Section Loop.
  Context {E : Type}.
  Variable outcome : nat -> option E * option E.
  Notation ms_step := (ms_step outcome).
  Notation ms_run_step := (ms_run_step outcome).

  Definition falses (l : list bool) : nat := length (filter negb l).

  Definition srv_num (m : @mapserver E) : nat := match srv m with Reloading => S (served m) | _ => served m end.

  Definition caller_ok (m : @mapserver E) (p : list bool) (k : @caller E) : Prop :=
    crashed k = false /\
    length (calls k) + length (got k) + refused k + (match pending k with Some _ => 1 | None => 0 end) = length p /\
    refused k + falses (calls k) <= falses p /\
    (forall n r, In (n, r) (got k) -> n < srv_num m /\ r = fst (outcome n)).

  Definition pend_ok (m : @mapserver E) : Prop :=
    match srv m with
    | Updating => exists c k, nth_error (callers m) c = Some k /\ pending k = Some (served m) /\
        forall c' k', nth_error (callers m) c' = Some k' -> c' <> c -> pending k' = None
    | SendingResult r => r = fst (outcome (served m)) /\ exists c k, nth_error (callers m) c = Some k /\ pending k = Some (served m) /\
        forall c' k', nth_error (callers m) c' = Some k' -> c' <> c -> pending k' = None
    | _ => forall c k, nth_error (callers m) c = Some k -> pending k = None
    end.

  Record ms_inv (progs : list (list bool)) (m : @mapserver E) : Prop := {
    m_srv : match srv m with Closed | SendingReload _ => False | _ => True end;
    m_pend : pend_ok m;
    m_len : length (callers m) = length progs;
    m_callers : forall c k p, nth_error (callers m) c = Some k -> nth_error progs c = Some p -> caller_ok m p k }.

  Definition ms_rank (m : @mapserver E) : nat :=
    list_sum (map (fun k : @caller E => 4 * length (calls k)) (callers m)) +
    match srv m with Updating => 3 | SendingResult _ => 2 | Reloading => 1 | _ => 0 end.

  Lemma upd (l : list (@caller E)) t k y : nth_error l t = Some k -> forall t', nth_error (set_nth t y l) t' = if t' =? t then Some y else nth_error l t'.
  Proof. intros H t'. apply nth_error_set_nth. apply nth_error_Some. rewrite H. discriminate. Qed.

  Lemma sum_set_calls (l : list (@caller E)) t x y : nth_error l t = Some x ->
    list_sum (map (fun k : @caller E => 4 * length (calls k)) (set_nth t y l)) + 4 * length (calls x) =
    list_sum (map (fun k : @caller E => 4 * length (calls k)) l) + 4 * length (calls y).
  Proof.
    assert (SC : forall a l, list_sum (a :: l) = a + list_sum l) by reflexivity.
    revert t. induction l as [|z l IH]; intros [|t] H; try discriminate H; cbn [set_nth map nth_error] in *; rewrite !SC.
    - injection H as ->. lia.
    - specialize (IH t H). lia.
  Qed.

  Lemma ms_inv_start progs : ms_inv progs (ms_start progs).
  Proof.
    constructor; cbn.
    - exact I.
    - intros c k H. rewrite nth_error_map in H. destruct (nth_error progs c); cbn in H; [|discriminate H]. injection H as <-. reflexivity.
    - apply map_length.
    - intros c k p H Hp. rewrite nth_error_map, Hp in H. cbn in H. injection H as <-. unfold caller_ok. cbn.
      split; [reflexivity|]. split; [lia|]. split; [apply le_n|]. intros n r [].
  Qed.

  Hypothesis reloads : forall i, snd (outcome i) = None.

  Lemma ms_step_inv progs m a m' : ms_inv progs m -> ms_run_step m a = Some m' -> ms_inv progs m' /\ ms_rank m' < ms_rank m.
  Proof.
    intros HI H. unfold SyncModel.ms_run_step in H. destruct m as [sv n cs]. destruct a as [c|]; cbn [SyncModel.ms_step srv served callers] in H.
    - destruct (nth_error cs c) as [k|] eqn:Hk; [|discriminate H].
      assert (Hp : exists p, nth_error progs c = Some p).
      { destruct (nth_error progs c) eqn:Hp; [eexists; reflexivity|]. apply nth_error_None in Hp. pose proof (m_len _ _ HI) as L. cbn in L.
        assert (c < length cs) by (apply nth_error_Some; rewrite Hk; discriminate). lia. }
      destruct Hp as [p Hp]. pose proof (m_callers _ _ HI c k p Hk Hp) as (Hcr & Hn & Hf & Hg). cbn in Hg.
      rewrite Hcr in H. pose proof (m_pend _ _ HI) as HP. unfold pend_ok in HP. cbn in HP.
      destruct (pending k) as [u|] eqn:Ep.
      + destruct sv as [| |r| |e|]; cbn in HP; try discriminate H; [|destruct (m_srv _ _ HI)].
        destruct HP as (-> & c0 & k0 & Hk0 & Hu & Ho). injection H as <-.
        assert (c0 = c). { destruct (Nat.eq_dec c0 c) as [|Hne]; [assumption|]. specialize (Ho c k Hk ltac:(congruence)). congruence. }
        subst c0. rewrite Hk in Hk0. injection Hk0 as <-. rewrite Ep in Hu. injection Hu as ->. split.
        * constructor; cbn.
          -- exact I.
          -- intros c' k' H'. rewrite (upd _ _ _ _ Hk) in H'. destruct (Nat.eqb_spec c' c); [injection H' as <-; reflexivity | exact (Ho c' k' H' n0)].
          -- rewrite set_nth_length. exact (m_len _ _ HI).
          -- intros c' k' p' H' Hp'. rewrite (upd _ _ _ _ Hk) in H'. destruct (Nat.eqb_spec c' c) as [->|Hne].
             ++ injection H' as <-. rewrite Hp in Hp'. injection Hp' as <-. unfold caller_ok. cbn. split; [reflexivity|]. rewrite app_length. cbn.
                split; [lia|]. split; [exact Hf|]. intros n' r' Hin. apply in_app_or in Hin. destruct Hin as [Hin|[Hin|[]]].
                ** destruct (Hg _ _ Hin). split; [cbn in *; lia | assumption].
                ** injection Hin as <- <-. split; [cbn; lia | reflexivity].
             ++ destruct (m_callers _ _ HI c' k' p' H' Hp') as (A & B & C & D). unfold caller_ok. cbn in *. split; [assumption|]. split; [assumption|].
                split; [assumption|]. intros n' r' Hin. destruct (D _ _ Hin). split; [lia | assumption].
        * unfold ms_rank, set_caller. cbn [srv callers]. pose proof (sum_set_calls cs c k {| calls := calls k; pending := None; got := got k ++ [(n, fst (outcome n))]; refused := refused k; crashed := false |} Hk) as S. cbn [calls] in S. lia.
      + destruct (calls k) as [|b rest] eqn:Ec; [discriminate H|].
        assert (Fr : falses rest <= falses (b :: rest)) by (unfold falses; destruct b; cbn; lia).
        cbn in Hn.
        assert (G : forall sv', sv' = sv -> match sv with Listening | Closed => False | _ => True end ->
                    (if b then None else Some (set_caller {| srv := sv; served := n; callers := cs |} sv' n c
                       {| calls := rest; pending := None; got := got k; refused := S (refused k); crashed := false |})) = Some m' ->
                    ms_inv progs m' /\ ms_rank m' < ms_rank {| srv := sv; served := n; callers := cs |}).
        { intros sv' -> Hsv H'. destruct b; [discriminate H'|]. injection H' as <-. split.
          - constructor; cbn.
            + exact (m_srv _ _ HI).
            + unfold pend_ok. cbn.
              assert (G1 : (exists c0 k0, nth_error cs c0 = Some k0 /\ pending k0 = Some n /\ (forall c' k', nth_error cs c' = Some k' -> c' <> c0 -> pending k' = None)) ->
                exists c0 k0, nth_error (set_nth c {| calls := rest; pending := None; got := got k; refused := S (refused k); crashed := false |} cs) c0 = Some k0 /\ pending k0 = Some n /\
                  (forall c' k', nth_error (set_nth c {| calls := rest; pending := None; got := got k; refused := S (refused k); crashed := false |} cs) c' = Some k' -> c' <> c0 -> pending k' = None)).
              { intros (c0 & k0 & Hk0 & Hu & Ho). assert (Hcc : c0 <> c) by (intros ->; rewrite Hk in Hk0; injection Hk0 as <-; congruence).
                exists c0, k0. rewrite (upd _ _ _ _ Hk). apply Nat.eqb_neq in Hcc. rewrite Hcc. split; [exact Hk0|]. split; [exact Hu|].
                intros c' k' H' Hne. rewrite (upd _ _ _ _ Hk) in H'. destruct (Nat.eqb_spec c' c); [injection H' as <-; reflexivity | exact (Ho c' k' H' Hne)]. }
              assert (G2 : (forall c' k', nth_error cs c' = Some k' -> pending k' = None) ->
                 forall c' k', nth_error (set_nth c {| calls := rest; pending := None; got := got k; refused := S (refused k); crashed := false |} cs) c' = Some k' -> pending k' = None).
              { intros Ho c' k' H'. rewrite (upd _ _ _ _ Hk) in H'. destruct (Nat.eqb_spec c' c); [injection H' as <-; reflexivity | exact (Ho c' k' H')]. }
              destruct sv as [| |r| |e|]; cbn in HP |- *; [exact (G2 HP) | exact (G1 HP) | destruct HP as [HP0 HP]; split; [exact HP0 | exact (G1 HP)] | exact (G2 HP)..].
            + rewrite set_nth_length. exact (m_len _ _ HI).
            + intros c' k' p' H' Hp'. rewrite (upd _ _ _ _ Hk) in H'. destruct (Nat.eqb_spec c' c) as [->|Hne].
              * injection H' as <-. rewrite Hp in Hp'. injection Hp' as <-. unfold caller_ok. cbn. split; [reflexivity|].
                split; [lia|]. split; [unfold falses in *; cbn in Hf; lia|]. exact Hg.
              * exact (m_callers _ _ HI c' k' p' H' Hp').
          - unfold ms_rank, set_caller. cbn [srv callers]. pose proof (sum_set_calls cs c k {| calls := rest; pending := None; got := got k; refused := S (refused k); crashed := false |} Hk) as X.
            cbn [calls] in X. rewrite Ec in X. cbn [length] in X. lia. }
        destruct sv as [| |r| |e|]; cbn in HP; try (apply (G _ eq_refl I); exact H); [|destruct (m_srv _ _ HI)].
        injection H as <-. clear G. split.
        * constructor; cbn.
          -- exact I.
          -- exists c. eexists. rewrite (upd _ _ _ _ Hk), Nat.eqb_refl. split; [reflexivity|]. split; [reflexivity|].
             intros c' k' H' Hne. rewrite (upd _ _ _ _ Hk) in H'. apply Nat.eqb_neq in Hne. rewrite Hne in H'. exact (HP c' k' H').
          -- rewrite set_nth_length. exact (m_len _ _ HI).
          -- intros c' k' p' H' Hp'. rewrite (upd _ _ _ _ Hk) in H'. destruct (Nat.eqb_spec c' c) as [->|Hne].
             ++ injection H' as <-. rewrite Hp in Hp'. injection Hp' as <-. unfold caller_ok. cbn. split; [reflexivity|].
                split; [lia|]. split; [change (refused k + falses rest <= falses p); lia | exact Hg].
             ++ exact (m_callers _ _ HI c' k' p' H' Hp').
        * unfold ms_rank, set_caller. cbn [srv callers]. pose proof (sum_set_calls cs c k {| calls := rest; pending := Some n; got := got k; refused := refused k; crashed := false |} Hk) as X.
          cbn [calls] in X. rewrite Ec in X. cbn [length] in X. lia.
    - destruct sv as [| |r| |e|]; cbn in H; try discriminate H; injection H as <-.
      + split.
        * pose proof (m_pend _ _ HI) as HP. constructor; cbn in *.
          -- exact I.
          -- split; [reflexivity | exact HP].
          -- exact (m_len _ _ HI).
          -- intros c k p Hk Hp. exact (m_callers _ _ HI c k p Hk Hp).
        * unfold ms_rank. cbn. lia.
      + rewrite reloads. split.
        * pose proof (m_pend _ _ HI) as HP. constructor; cbn in *.
          -- exact I.
          -- exact HP.
          -- exact (m_len _ _ HI).
          -- intros c k p Hk Hp. exact (m_callers _ _ HI c k p Hk Hp).
        * unfold ms_rank. cbn. lia.
  Qed.

  Definition all_served (m : @mapserver E) : Prop := srv m = Listening /\ forall c k, nth_error (callers m) c = Some k -> calls k = [] /\ pending k = None.

  Lemma ms_progress progs m : ms_inv progs m -> (all_served m /\ stuck ms_run_step m) \/ exists a, ms_run_step m a <> None.
  Proof.
    intros HI. pose proof (m_pend _ _ HI) as HP. destruct m as [sv n cs]. unfold pend_ok in HP. cbn in HP. destruct sv as [| |r| |e|]; cbn in HP.
    - assert (D : (forall c k, nth_error cs c = Some k -> calls k = []) \/ exists c k, nth_error cs c = Some k /\ calls k <> []).
      { clear. induction cs as [|x cs IH]; [left; intros [|c] k H; discriminate H|]. destruct (calls x) eqn:Ex.
        - destruct IH as [IH|(c & k & Hk & Hc)]; [|right; exists (S c), k; split; assumption].
          left. intros [|c] k H; cbn in H; [injection H as <-; exact Ex | exact (IH c k H)].
        - right. exists 0, x. split; [reflexivity|]. rewrite Ex. discriminate. }
      destruct D as [D|(c & k & Hk & Hc)].
      + left. split.
        * split; [reflexivity|]. intros c k H. split; [exact (D c k H) | exact (HP c k H)].
        * intros [c|]; cbn; [|reflexivity]. destruct (nth_error cs c) as [k|] eqn:Hk; [|reflexivity]. rewrite (D c k Hk), (HP c k Hk).
          destruct (crashed k); reflexivity.
      + right. exists (Some c). cbn. rewrite Hk, (HP c k Hk).
        destruct (nth_error progs c) as [p|] eqn:Hp.
        * destruct (m_callers _ _ HI c k p Hk Hp) as (-> & _). destruct (calls k); [contradiction | discriminate].
        * apply nth_error_None in Hp. pose proof (m_len _ _ HI) as L. cbn in L. assert (c < length cs) by (apply nth_error_Some; rewrite Hk; discriminate). lia.
    - right. exists None. discriminate.
    - right. destruct HP as (_ & c & k & Hk & Hu & _). exists (Some c). cbn. rewrite Hk, Hu.
      destruct (nth_error progs c) as [p|] eqn:Hp.
      * destruct (m_callers _ _ HI c k p Hk Hp) as (-> & _). discriminate.
      * apply nth_error_None in Hp. pose proof (m_len _ _ HI) as L. cbn in L. assert (c < length cs) by (apply nth_error_Some; rewrite Hk; discriminate). lia.
    - right. exists None. cbn. discriminate.
    - destruct (m_srv _ _ HI).
    - destruct (m_srv _ _ HI).
  Qed.

  Lemma ms_run_inv progs l : ms_inv progs (run ms_run_step (ms_start progs) l).
  Proof. apply run_inv; [|apply ms_inv_start]. intros s a s' H E'. exact (proj1 (ms_step_inv progs s a s' H E')). Qed.

  Lemma ms_finishes progs f : fair f -> exists N, all_served (run ms_run_step (ms_start progs) (prefix f N)).
  Proof.
    intros Hf.
    destruct (fair_finishes ms_run_step (ms_inv progs) (fun s a s' H E' => proj1 (ms_step_inv progs s a s' H E'))
                (fun s' s => ms_rank s' < ms_rank s) (Wf_nat.well_founded_ltof (@mapserver E) ms_rank)
                (fun s a s' H E' => proj2 (ms_step_inv progs s a s' H E'))) with (f := f) (s := @ms_start E progs) as [N Hn].
    - intros s Hs. destruct (ms_progress progs s Hs) as [[_ H]|H]; [left; exact H | right; exact H].
    - apply ms_inv_start.
    - exact Hf.
    - exists N. destruct (ms_progress progs _ (ms_run_inv progs (prefix f N))) as [[H _]|[a Ha]]; [exact H|]. destruct (Ha (Hn a)).
  Qed.
End Loop.

(** After a failed reload nobody is served any more. *)
Section Wedge.
  Context {E : Type}.
  Variable outcome : nat -> option E * option E.
  Notation ms_step := (ms_step outcome).

  Definition one_pending (m : @mapserver E) : Prop :=
    match srv m with
    | Updating | SendingResult _ => exists c, forall c' k', nth_error (callers m) c' = Some k' -> c' <> c -> pending k' = None
    | _ => forall c k, nth_error (callers m) c = Some k -> pending k = None
    end.

  Lemma one_pending_step m a m' : one_pending m -> ms_step m a = Some m' -> one_pending m'.
  Proof.
    intros HP H. destruct m as [sv n cs]. unfold one_pending in HP. cbn in HP. destruct a as [| |c]; cbn [SyncModel.ms_step srv served callers] in H.
    - destruct sv; try discriminate H; injection H as <-; unfold one_pending; cbn; [exact HP|].
      destruct (snd (outcome n)); exact HP.
    - destruct sv; try discriminate H. injection H as <-. exact HP.
    - destruct (nth_error cs c) as [k|] eqn:Hk; [|discriminate H]. destruct (crashed k); [discriminate H|].
      destruct (pending k) as [u|] eqn:Ep.
      + destruct sv as [| |r| |e|]; try discriminate H; injection H as <-; unfold one_pending; cbn; intros c' k' H'; rewrite (upd _ _ _ _ Hk) in H';
          (destruct (Nat.eqb_spec c' c); [injection H' as <-; reflexivity|]).
        * destruct HP as [c0 HP]. assert (c0 = c). { destruct (Nat.eq_dec c0 c) as [|Hne]; [assumption|]. specialize (HP c k Hk ltac:(congruence)). congruence. }
          subst. exact (HP c' k' H' n0).
        * specialize (HP c' k' H'). exact HP.
      + destruct (calls k) as [|b rest]; [discriminate H|].
        destruct sv as [| |r| |e|]; try (destruct b; [discriminate H|]); injection H as <-; unfold one_pending; cbn;
          try (intros c' k' H'; rewrite (upd _ _ _ _ Hk) in H'; destruct (Nat.eqb_spec c' c); [injection H' as <-; reflexivity | exact (HP c' k' H')]).
        * exists c. intros c' k' H' Hne. rewrite (upd _ _ _ _ Hk) in H'. apply Nat.eqb_neq in Hne. rewrite Hne in H'. exact (HP c' k' H').
        * destruct HP as [c0 HP]. exists c0. intros c' k' H' Hne. rewrite (upd _ _ _ _ Hk) in H'. destruct (Nat.eqb_spec c' c); [injection H' as <-; reflexivity | exact (HP c' k' H' Hne)].
        * destruct HP as [c0 HP]. exists c0. intros c' k' H' Hne. rewrite (upd _ _ _ _ Hk) in H'. destruct (Nat.eqb_spec c' c); [injection H' as <-; reflexivity | exact (HP c' k' H' Hne)].
  Qed.

  Lemma one_pending_start progs : one_pending (@ms_start E progs).
  Proof. cbn. intros c k H. rewrite nth_error_map in H. destruct (nth_error progs c); cbn in H; [|discriminate H]. injection H as <-. reflexivity. Qed.

  (** The server waits for somebody to take the error of the reload; what every caller has got stays as it is. *)
  Definition wedged (e : E) (gots : list (list (nat * option E))) (n : nat) (m : @mapserver E) : Prop :=
    srv m = SendingReload e /\ served m = n /\ map got (callers m) = gots /\ forall c k, nth_error (callers m) c = Some k -> pending k = None.

  Lemma wedged_step e gots n m a m' : wedged e gots n m -> ms_step m a = Some m' -> wedged e gots n m'.
  Proof.
    intros (Hs & Hn & Hg & Hp) H. destruct m as [sv n' cs]. cbn in Hs, Hn, Hg, Hp. subst sv n'. destruct a as [| |c]; cbn in H; try discriminate H.
    destruct (nth_error cs c) as [k|] eqn:Hk; [|discriminate H]. rewrite (Hp c k Hk) in H. destruct (crashed k); [discriminate H|].
    destruct (calls k) as [|[|] rest]; try discriminate H. injection H as <-. split; [reflexivity|]. split; [reflexivity|]. cbn. split.
    - rewrite <- Hg. clear - Hk. revert c Hk. induction cs as [|x cs IH]; intros [|c] Hk; cbn in *; try discriminate Hk; [injection Hk as ->; reflexivity|].
      f_equal. exact (IH c Hk).
    - intros c' k' H'. rewrite (upd _ _ _ _ Hk) in H'. destruct (Nat.eqb_spec c' c); [injection H' as <-; reflexivity | exact (Hp c' k' H')].
  Qed.

  Lemma wedge progs l e : let m := run ms_step (ms_start progs) l in srv m = SendingReload e ->
    forall l', let m' := run ms_step m l' in srv m' = SendingReload e /\ served m' = served m /\ map got (callers m') = map got (callers m).
  Proof.
    intros m Hs l' m'.
    assert (W : wedged e (map got (callers m)) (served m) m').
    { apply (run_inv ms_step (wedged e (map got (callers m)) (served m))); [intros s a s'; apply wedged_step|].
      split; [exact Hs|]. split; [reflexivity|]. split; [reflexivity|].
      assert (P : one_pending m) by (apply run_inv; [apply one_pending_step | apply one_pending_start]).
      unfold one_pending in P. rewrite Hs in P. exact P. }
    destruct W as (A & B & C & _). split; [exact A|]. split; [exact B | exact C].
  Qed.
End Wedge.
