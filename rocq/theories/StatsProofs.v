(** Lemmas for StatsModel.v. *)
From Verif Require Import Base BaseLemmas UtilModel BatchModel CsvModel StatsModel.

Lemma total_app c l l' : total c (l ++ l') = total c l + total c l'.
Proof. induction l as [|[c' n] l IH]; [reflexivity|]. cbn [app total]. rewrite IH. lia. Qed.

(** ** At every moment *)
(** [d]: how much [a] is ahead of [b] *)
Fixpoint bal (a b : counter) (d : nat) (l : list addition) : Prop :=
  match l with
  | [] => True
  | (c, n) :: l' =>
      (if counter_eqb b c then n else 0) <= d + (if counter_eqb a c then n else 0) /\
      bal a b (d + (if counter_eqb a c then n else 0) - (if counter_eqb b c then n else 0)) l'
  end.
Lemma bal_mono a b l : forall d d', d <= d' -> bal a b d l -> bal a b d' l.
Proof.
  induction l as [|[c n] l IH]; intros d d' L B; [exact B|]. destruct B as [B1 B2]. split; [lia|]. eapply IH; [|exact B2]. lia.
Qed.
Lemma bal_app a b l l' : forall d, bal a b d l -> bal a b 0 l' -> bal a b d (l ++ l').
Proof.
  induction l as [|[c n] l IH]; intros d B B'; cbn [app]; [apply (bal_mono a b l' 0 d); [lia|exact B']|]. destruct B as [B1 B2]. split; [exact B1|]. apply IH; assumption.
Qed.
Lemma bal_prefix a b l : forall d n, bal a b d l -> total b (firstn n l) <= d + total a (firstn n l).
Proof.
  induction l as [|[c m] l IH]; intros d n B; [destruct n; cbn; lia|]. destruct n as [|n]; [cbn; lia|]. destruct B as [B1 B2]. cbn [firstn total]. specialize (IH _ n B2). lia.
Qed.

Section Parse.
  Variable H : bytes -> bytes.
  Variable b64 : bytes -> option bytes.
  Variable x509 : bytes -> option cert.
  Variable not_after : cert -> Z.
  Variable now : Z.
  Variable size : nat.
  Local Notation chain_adds := (chain_adds H b64 x509 size).
  Local Notation line_adds := (line_adds H b64 x509 not_after now size).
  Local Notation worker_adds := (worker_adds H b64 x509 not_after now size).
  Local Notation to_chain := (to_chain H b64 x509 not_after now size).
  Local Notation chain_loop := (chain_loop H b64 x509 size).
  Local Notation worker := (worker H b64 x509 not_after now size).

  Lemma chain_bal parts : forall cache, bal Certs Uncached 0 (chain_adds parts cache) /\ bal Rows Expired 0 (chain_adds parts cache).
  Proof.
    induction parts as [|s parts IH]; intros cache; [split; exact Logic.I|]. cbn [StatsModel.chain_adds]. destruct (b64 s) as [r|]; [|split; exact Logic.I].
    destruct (lru_contains cache (H r)).
    - destruct (IH cache) as [I1 I2]. split; cbn; (split; [lia|]); (split; [lia|]); [apply (bal_mono _ _ _ 0); [lia|exact I1]|exact I2].
    - destruct (x509 r) as [c|]; [|split; cbn; (split; [lia|]); (split; [lia|exact Logic.I])].
      destruct (IH (lru_add size cache (H r))) as [I1 I2]. split; cbn; (split; [lia|]); (split; [lia|]); (split; [lia|]); assumption.
  Qed.
  Lemma line_bal p cache : bal Certs Uncached 0 (line_adds p cache) /\ bal Rows Expired 0 (line_adds p cache).
  Proof.
    unfold StatsModel.line_adds. destruct (get_expiration (p_exp p)) as [n|]; [|split; exact Logic.I].
    destruct (n * 1000000000 <? now)%Z; [split; cbn; repeat (split; [lia|]); exact Logic.I|].
    destruct (b64 (p_cert p)) as [r|]; [|split; cbn; repeat (split; [lia|]); exact Logic.I].
    destruct (lru_contains cache (H r)); [split; cbn; repeat (split; [lia|]); exact Logic.I|].
    destruct (x509 r) as [c|]; [|split; cbn; repeat (split; [lia|]); exact Logic.I].
    destruct (not_after c <? now)%Z; [split; cbn; repeat (split; [lia|]); exact Logic.I|].
    destruct (chain_bal (split_semicolon (p_chain p)) cache) as [I1 I2].
    split; cbn [bal counter_eqb]; repeat (split; [lia|]); (eapply bal_mono; [|eassumption]; lia).
  Qed.
  Lemma worker_bal rows : forall cache, bal Certs Uncached 0 (worker_adds rows cache) /\ bal Rows Expired 0 (worker_adds rows cache).
  Proof.
    induction rows as [|p rows IH]; intros cache; [split; exact Logic.I|]. cbn [StatsModel.worker_adds]. destruct (line_bal p cache) as [L1 L2].
    destruct (to_chain p cache) as [[o| |] cache']; [destruct (IH cache') as [I1 I2]|..]; (split; apply bal_app; try assumption; exact Logic.I).
  Qed.

  (** ** At the end *)
  Definition sum_length (l : list bytes) : nat := fold_right (fun r s => length r + s) 0 l.
  Definition some_of (ch : list (option cert * bytes)) : nat := length (filter (fun x => match fst x with Some _ => true | None => false end) ch).
  Lemma some_app ch ch' : some_of (ch ++ ch') = some_of ch + some_of ch'.
  Proof. unfold some_of. rewrite filter_app, app_length. reflexivity. Qed.
  Lemma chain_end parts : forall cache acc ch cache', chain_loop parts cache acc = (Ok ch, cache') ->
    total Rows (chain_adds parts cache) = 0 /\ total Expired (chain_adds parts cache) = 0 /\ total Uncached (chain_adds parts cache) + some_of acc = some_of ch /\
    exists seen, Forall2 (fun s r => b64 s = Some r) parts seen /\ total Certs (chain_adds parts cache) = length seen /\ total Bytes (chain_adds parts cache) = sum_length seen.
  Proof.
    induction parts as [|s parts IH]; intros cache acc ch cache' E; cbn [CsvModel.chain_loop] in E.
    - injection E as <- <-. repeat (split; [reflexivity|]). exists []. repeat split; constructor.
    - cbn [StatsModel.chain_adds]. destruct (b64 s) as [r|] eqn:B; [|discriminate]. destruct (lru_contains cache (H r)).
      + destruct (IH _ _ _ _ E) as (I1 & I2 & I3 & seen & F & C1 & C2). rewrite some_app in I3. cbn [total counter_eqb]. split; [exact I1|]. split; [exact I2|].
        split; [unfold some_of at 2 in I3; cbn in I3; lia|]. exists (r :: seen). split; [constructor; assumption|]. cbn [length sum_length fold_right]. unfold sum_length in C2. split; lia.
      + destruct (x509 r) as [c|]; [|discriminate]. destruct (IH _ _ _ _ E) as (I1 & I2 & I3 & seen & F & C1 & C2). rewrite some_app in I3. cbn [total counter_eqb]. split; [exact I1|]. split; [exact I2|].
        split; [unfold some_of at 2 in I3; cbn in I3; lia|]. exists (r :: seen). split; [constructor; assumption|]. cbn [length sum_length fold_right]. unfold sum_length in C2. split; lia.
  Qed.
  Lemma parents_some ch : length (unfold_parents ch) <= some_of ch.
  Proof. induction ch as [|[[c|] id] ch IH]; cbn; [lia| |lia]. unfold some_of in *. lia. Qed.
  (** What was decoded is a field of the row. *)
  Definition from_row (p : parsed) (r : bytes) : Prop := b64 (p_cert p) = Some r \/ exists s, In s (split_semicolon (p_chain p)) /\ b64 s = Some r.
  Definition stamp_over (p : parsed) : bool := match get_expiration (p_exp p) with Some n => (n * 1000000000 <? now)%Z | None => false end.
  Lemma line_end p cache o cache' : to_chain p cache = (Ok o, cache') ->
    total Rows (line_adds p cache) = 1 /\ total Expired (line_adds p cache) = (if stamp_over p then 1 else 0) /\
    (forall c id ch out, o = Some (c, id, ch) -> unfold_cert c id ch = Ok out -> length out <= total Uncached (line_adds p cache)) /\
    exists seen, Forall (from_row p) seen /\ total Certs (line_adds p cache) = total Expired (line_adds p cache) + length seen /\ total Bytes (line_adds p cache) = sum_length seen.
  Proof.
    unfold CsvModel.to_chain, StatsModel.line_adds, stamp_over. destruct (get_expiration (p_exp p)) as [n|]; [|discriminate].
    destruct (n * 1000000000 <? now)%Z.
    { intros E. injection E as <- <-. cbn. repeat (split; [reflexivity|]). split; [discriminate|]. exists []. repeat split; constructor. }
    destruct (b64 (p_cert p)) as [r|] eqn:B; [|discriminate]. assert (Fr : from_row p r) by (left; exact B).
    destruct (lru_contains cache (H r)).
    { intros E. injection E as <- <-. cbn. repeat (split; [reflexivity|]). split; [discriminate|]. exists [r]. split; [constructor; [exact Fr|constructor]|]. split; cbn; lia. }
    destruct (x509 r) as [c|]; [|discriminate]. destruct (not_after c <? now)%Z.
    { intros E. injection E as <- <-. cbn. repeat (split; [reflexivity|]). split; [discriminate|]. exists [r]. split; [constructor; [exact Fr|constructor]|]. split; cbn; lia. }
    destruct (chain_loop (split_semicolon (p_chain p)) cache []) as [[ch| |] cache1] eqn:L; try discriminate. intros E. injection E as <- <-.
    destruct (chain_end _ _ _ _ _ L) as (I1 & I2 & I3 & seen & F & C1 & C2). cbn [total counter_eqb]. split; [lia|]. split; [lia|]. split.
    - intros c' id' ch' out Q U. injection Q as <- <- <-. unfold unfold_cert in U. destruct ch as [|[x pid] ch]; [discriminate|]. injection U as <-. cbn [length].
      pose proof (parents_some ((x, pid) :: ch)) as P. unfold some_of at 1 in I3. cbn [filter length] in I3. cbn [unfold_parents] in P. lia.
    - exists (r :: seen). split; [|cbn [length sum_length fold_right]; unfold sum_length in C2; split; lia]. constructor; [exact Fr|].
      clear - F. assert (G : forall parts, incl parts (split_semicolon (p_chain p)) -> forall seen, Forall2 (fun s r => b64 s = Some r) parts seen -> Forall (from_row p) seen).
      { intros parts. induction parts as [|s parts IH]; intros I l X; inversion X; subst; constructor; [right; exists s; split; [apply I; left; reflexivity|assumption]|]. apply IH; [|assumption]. intros z Z. apply I. right. exact Z. }
      apply (G _ (incl_refl _) _ F).
  Qed.
  Theorem worker_end rows : forall cache, snd (worker rows cache) = true ->
    total Rows (worker_adds rows cache) = length rows /\ total Expired (worker_adds rows cache) = length (filter stamp_over rows) /\
    length (fst (worker rows cache)) <= total Uncached (worker_adds rows cache) /\
    exists seen, Forall (fun r => exists p, In p rows /\ from_row p r) seen /\
      total Certs (worker_adds rows cache) = total Expired (worker_adds rows cache) + length seen /\ total Bytes (worker_adds rows cache) = sum_length seen.
  Proof.
    induction rows as [|p rows IH]; intros cache A.
    - cbn. repeat (split; [lia|]). exists []. repeat split; constructor.
    - cbn [CsvModel.worker StatsModel.worker_adds filter length] in *. destruct (to_chain p cache) as [[o| |] cache'] eqn:E; try discriminate A.
      destruct (line_end p cache o cache' E) as (L1 & L2 & L3 & s1 & F1 & C1 & B1). rewrite !total_app.
      assert (W : exists out, snd (worker rows cache') = true /\ fst (match o with Some (c, id, ch) => match unfold_cert c id ch with Ok o => let (outs, ok) := worker rows cache' in (o ++ outs, ok) | _ => ([], false) end | None => worker rows cache' end) = out ++ fst (worker rows cache') /\ length out <= total Uncached (line_adds p cache)).
      { destruct o as [[[c id] ch]|]; [|exists []; split; [exact A|split; [reflexivity|cbn; lia]]]. destruct (unfold_cert c id ch) as [out| |] eqn:U; try discriminate A.
        destruct (worker rows cache') as [outs ok]. exists out. split; [exact A|]. split; [reflexivity|]. exact (L3 c id ch out eq_refl U). }
      destruct W as (out & W1 & W2 & W3). destruct (IH cache' W1) as (I1 & I2 & I3 & s2 & F2 & C2 & B2).
      split; [lia|]. split; [rewrite L2, I2; destruct (stamp_over p); cbn; lia|]. split; [rewrite W2, app_length; lia|].
      exists (s1 ++ s2). split; [|unfold sum_length in *; rewrite app_length, fold_right_app; split; [lia|]].
      + apply Forall_app. split; [apply (Forall_impl _ (P := from_row p)); [|exact F1]; intros r Q; exists p; split; [left; reflexivity|exact Q]|].
        apply (Forall_impl _ (P := fun r => exists q, In q rows /\ from_row q r)); [|exact F2]. intros r (q & Q1 & Q2). exists q. split; [right; exact Q1|exact Q2].
      + rewrite B1, B2. clear. induction s1 as [|r s1 IH]; cbn [fold_right]; [reflexivity|]. rewrite <- IH. apply eq_sym, Nat.add_assoc.
  Qed.
End Parse.
(** ** All workers *)
Lemma value_le a b workers : (forall w, In w workers -> bal a b 0 w) -> forall done, value_at b workers done <= value_at a workers done.
Proof.
  unfold value_at. induction workers as [|w workers IH]; intros B done; [cbn; lia|]. destruct done as [|n done]; [cbn; lia|]. cbn [combine fold_right fst snd].
  specialize (IH (fun x I => B x (or_intror I)) done). pose proof (bal_prefix a b w 0 n (B w (or_introl eq_refl))). lia.
Qed.
Lemma no_cert_sink first middle last : (forall s, In s last -> s <> CertSink) -> existsb is_cert_sink (join_raw first middle last) = false.
Proof.
  intros L. destruct (existsb is_cert_sink (join_raw first middle last)) eqn:E; [|reflexivity]. apply existsb_exists in E as (s & I & S). destruct s; try discriminate S.
  unfold join_raw in I. apply in_app_or in I as [I|I]; [apply filter_In in I as [_ X]; discriminate X|]. apply in_app_or in I as [I|I].
  - apply in_flat_map in I as (m & _ & X). apply filter_In in X as [_ X]. discriminate X.
  - apply filter_In in I as [X _]. exfalso. exact (L _ X eq_refl).
Qed.
