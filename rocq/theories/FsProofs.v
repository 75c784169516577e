(** The journal file is replaced atomically. *)
From Verif Require Import Base FsModel.

Lemma upd_same {A} (f : nat -> A) n x : upd f n x n = x.
Proof. unfold upd. rewrite Nat.eqb_refl. reflexivity. Qed.
Lemma upd_other {A} (f : nat -> A) n x m : m <> n -> upd f n x m = f m.
Proof. unfold upd. intros Hn. destruct (Nat.eqb_spec m n); [congruence | reflexivity]. Qed.
Lemma cur_dir_app d l o : fold_left dir_step (l ++ [o]) d = dir_step (fold_left dir_step l d) o.
Proof. rewrite fold_left_app. reflexivity. Qed.

(** The temporary name and inode are fresh. *)
Definition fresh_tmp (s : fs) (t i j : nat) : Prop := t <> j /\ forall n, cur_dir s n <> Some i.

Lemma firstn_cases {A} k (l : list A) : exists p, firstn k l = p /\ exists q, l = p ++ q.
Proof. exists (firstn k l). split; [reflexivity|]. exists (skipn k l). symmetry. apply firstn_skipn. Qed.

Theorem process_death s o t i j content k : fresh_tmp s t i j ->
  let ops := fst (write_locked o t i j content) in
  (view (steps s (firstn k ops)) j = view s j \/ view (steps s (firstn k ops)) j = Some content) /\
  (snd (write_locked o t i j content) = true -> view (steps s ops) j = Some content) /\
  (snd (write_locked o t i j content) = false -> view (steps s ops) j = view s j).
Proof.
  intros [Htj Hfr]. cbv zeta.
  assert (Hji : forall m, cur_dir s j = Some m -> m <> i) by (intros m Hm ->; exact (Hfr j Hm)).
  (* the states reached *)
  assert (Hview : forall s', f_dir s' = f_dir s -> (exists l, f_pend s' = f_pend s ++ l /\ forall x, In x l -> match x with DBind n _ => n <> j | DUnbind n => n <> j end) ->
    (forall m, m <> i -> f_data s' m = f_data s m) -> view s' j = view s j).
  { intros s' Hd (l & Hp & Hl) Hdat. unfold view. assert (Hc : cur_dir s' j = cur_dir s j).
    { unfold cur_dir. rewrite Hd, Hp, fold_left_app. generalize (fold_left dir_step (f_pend s) (f_dir s)). clear -Hl.
      induction l as [|x l IH]; intros d; [reflexivity|]. cbn [fold_left]. rewrite IH by (intros y Hy; apply Hl; right; exact Hy).
      specialize (Hl x (or_introl eq_refl)). destruct x; cbn; apply upd_other; congruence. }
    rewrite Hc. destruct (cur_dir s j) as [m|] eqn:Hm; [|reflexivity]. rewrite Hdat; [reflexivity | auto]. }
  assert (Hup : forall (f : nat -> bytes) x m, m <> i -> upd f i x m = f m) by (intros; apply upd_other; assumption).
  assert (Hstep : forall l, Forall (fun o => match o with OCreate n i' => n <> j /\ i' = i | OWrite i' _ => i' = i | OSync _ | OClose _ => True | ORename _ _ => False | ORemove n => n <> j end) l ->
    view (steps s l) j = view s j).
  { intros l Hl. apply Hview.
    - clear -Hl. revert s. induction l as [|x l IH]; intros s; [reflexivity|]. inversion Hl; subst. cbn [steps fold_left]. unfold steps in IH. rewrite IH by assumption. destruct x; try reflexivity. destruct H1.
    - clear -Hl. revert s. induction l as [|x l IH]; intros s; [exists []; rewrite app_nil_r; split; [reflexivity | intros x []]|]. inversion Hl as [|? ? Hx Hl']; subst. cbn [steps fold_left]. unfold steps in IH.
      destruct (IH Hl' (step s x)) as (l' & Hp & Hin). rewrite Hp. destruct x as [n i'|i' b|i'|i'|a b|n]; cbn [step f_pend].
      + exists (DBind n i' :: l'). rewrite <- app_assoc. split; [reflexivity|]. intros y [<-|Hy]; [cbn in Hx |- *; tauto | exact (Hin y Hy)].
      + exists l'. split; [reflexivity | exact Hin].
      + exists l'. split; [reflexivity | exact Hin].
      + exists l'. split; [reflexivity | exact Hin].
      + destruct Hx.
      + exists (DUnbind n :: l'). rewrite <- app_assoc. split; [reflexivity|]. intros y [<-|Hy]; [cbn in Hx |- *; tauto | exact (Hin y Hy)].
    - clear -Hl. intros m Hm. revert s. induction l as [|x l IH]; intros s; [reflexivity|]. inversion Hl as [|? ? Hx Hl']; subst. cbn [steps fold_left]. unfold steps in IH. rewrite IH by assumption.
      destruct x as [n i'|i' b|i'|i'|a b|n]; cbn [step f_data]; try reflexivity.
      + destruct Hx as [_ ->]. apply upd_other. exact Hm.
      + subst i'. apply upd_other. exact Hm.
      + destruct Hx. }
  assert (Hpre : forall l k, Forall (fun o => match o with OCreate n i' => n <> j /\ i' = i | OWrite i' _ => i' = i | OSync _ | OClose _ => True | ORename _ _ => False | ORemove n => n <> j end) l ->
    view (steps s (firstn k l)) j = view s j).
  { intros l k' Hl. apply Hstep. rewrite <- (firstn_skipn k' l) in Hl. apply Forall_app in Hl. apply Hl. }
  assert (Hbad : forall l k, Forall (fun o => match o with OCreate n i' => n <> j /\ i' = i | OWrite i' _ => i' = i | OSync _ | OClose _ => True | ORename _ _ => False | ORemove n => n <> j end) l ->
    (view (steps s (firstn k l)) j = view s j \/ view (steps s (firstn k l)) j = Some content) /\ (false = true -> view (steps s l) j = Some content) /\
    (false = false -> view (steps s l) j = view s j)).
  { intros l k' Hl. split; [left; apply Hpre; exact Hl|]. split; [discriminate|]. intros _. apply Hstep. exact Hl. }
  unfold write_locked.
  destruct (o_create o); [|apply Hbad; constructor].
  destruct (o_write o); [|apply Hbad; repeat constructor; auto].
  destruct (o_sync o); [|apply Hbad; repeat constructor; auto].
  destruct (o_close o); [|apply Hbad; repeat constructor; auto].
  destruct (o_rename o); [|apply Hbad; repeat constructor; auto].
  assert (Hdone : view (steps s [OCreate t i; OWrite i content; OSync i; OClose i; ORename t j]) j = Some content).
  { unfold steps. cbn [fold_left step]. set (s1 := mk_fs _ _ _ _).
    assert (Hct : cur_dir s1 t = Some i).
    { unfold cur_dir, s1. cbn [f_pend f_dir]. rewrite cur_dir_app. cbn [dir_step]. apply upd_same. }
    rewrite Hct. unfold view, cur_dir. cbn [f_pend f_dir f_data]. unfold s1. cbn [f_pend f_dir f_data].
    rewrite fold_left_app. cbn [fold_left dir_step]. rewrite upd_other by congruence. rewrite !upd_same. reflexivity. }
  cbn [fst snd]. split; [|split; [intros _; exact Hdone | discriminate]].
  destruct (Nat.le_gt_cases 5 k) as [Hk|Hk].
  - right. rewrite firstn_all2 by (cbn; lia). exact Hdone.
  - left. replace (firstn k [OCreate t i; OWrite i content; OSync i; OClose i; ORename t j]) with (firstn k [OCreate t i; OWrite i content; OSync i; OClose i]).
    + apply Hpre. repeat constructor; auto.
    + change [OCreate t i; OWrite i content; OSync i; OClose i; ORename t j] with ([OCreate t i; OWrite i content; OSync i; OClose i] ++ [ORename t j]).
      rewrite firstn_app. replace (k - length [OCreate t i; OWrite i content; OSync i; OClose i]) with 0 by (cbn; lia). cbn [firstn]. rewrite app_nil_r. reflexivity.
Qed.

(** ** Machine crash: never a torn journal, whatever the number of writes. *)
(** Every directory state that may become durable binds the journal to a synced file with one of the contents [L]. *)
Definition safe (s : fs) (j : nat) (none : Prop) (L : list bytes) : Prop :=
  forall k, match fold_left dir_step (firstn k (f_pend s)) (f_dir s) j with
            | None => none
            | Some n => f_synced s n = true /\ In (f_data s n) L
            end.
(** The inode is used nowhere, also not in directory states that may reappear. *)
Definition fresh_all (s : fs) (t i j : nat) : Prop :=
  t <> j /\ forall k n, fold_left dir_step (firstn k (f_pend s)) (f_dir s) n <> Some i.

Lemma safe_after_crash s j none L found : safe s j none L -> after_crash s j found ->
  (found = None /\ none) \/ (exists b, found = Some b /\ In b L).
Proof.
  intros Hs (k & Hk). specialize (Hs k). cbv zeta in Hk. destruct (fold_left dir_step (firstn k (f_pend s)) (f_dir s) j) as [n|].
  - destruct Hk as (b & -> & Hb). destruct Hs as [H1 H2]. right. exists b. split; [reflexivity|]. rewrite (Hb H1). exact H2.
  - auto.
Qed.

Lemma firstn_app_le {A} k (l r : list A) : k <= length l -> firstn k (l ++ r) = firstn k l.
Proof. intros Hk. rewrite firstn_app. replace (k - length l) with 0 by lia. cbn. apply app_nil_r. Qed.
Lemma firstn_app_gt {A} k (l r : list A) : length l <= k -> firstn k (l ++ r) = l ++ firstn (k - length l) r.
Proof. intros Hk. rewrite firstn_app. rewrite (firstn_all2 (n := k) l) by lia. reflexivity. Qed.

(** Operations that do not touch the journal's name nor its inodes keep safety. *)
Lemma safe_pend s j none L l dat syn : safe s j none L ->
  (forall x, In x l -> match x with DBind n _ => n <> j | DUnbind n => n <> j end) ->
  (forall k n, fold_left dir_step (firstn k (f_pend s)) (f_dir s) j = Some n -> dat n = f_data s n /\ syn n = f_synced s n) ->
  safe (mk_fs (f_dir s) (f_pend s ++ l) dat syn) j none L.
Proof.
  intros Hs Hl Hd k. cbn [f_pend f_dir f_data f_synced].
  assert (Hq : exists k', fold_left dir_step (firstn k (f_pend s ++ l)) (f_dir s) j = fold_left dir_step (firstn k' (f_pend s)) (f_dir s) j).
  { destruct (Nat.le_gt_cases k (length (f_pend s))) as [Hk|Hk].
    - exists k. rewrite firstn_app_le by lia. reflexivity.
    - exists (length (f_pend s)). rewrite firstn_app_gt by lia. rewrite firstn_all, fold_left_app.
      generalize (fold_left dir_step (f_pend s) (f_dir s)).
      assert (Hl' : forall x, In x (firstn (k - length (f_pend s)) l) -> match x with DBind n _ => n <> j | DUnbind n => n <> j end).
      { intros x Hx. apply Hl. rewrite <- (firstn_skipn (k - length (f_pend s)) l). apply in_or_app. auto. }
      revert Hl'. generalize (firstn (k - length (f_pend s)) l). clear. intros l Hl.
      induction l as [|x l IH]; intros d; [reflexivity|]. cbn [fold_left]. rewrite IH by (intros y Hy; apply Hl; right; exact Hy).
      specialize (Hl x (or_introl eq_refl)). destruct x; cbn; apply upd_other; congruence. }
  destruct Hq as [k' Hq]. rewrite Hq. specialize (Hs k'). specialize (Hd k').
  destruct (fold_left dir_step (firstn k' (f_pend s)) (f_dir s) j) as [n|]; [|exact Hs].
  destruct (Hd n eq_refl) as [-> ->]. exact Hs.
Qed.

Theorem machine_crash s o t i j content none L k : fresh_all s t i j -> safe s j none L ->
  safe (steps s (firstn k (fst (write_locked o t i j content)))) j none (content :: L).
Proof.
  intros [Htj Hfr] Hs0.
  assert (Hs : safe s j none (content :: L)).
  { intros k'. specialize (Hs0 k'). destruct (fold_left _ _ _ j); [|exact Hs0]. destruct Hs0. split; [assumption | right; assumption]. }
  assert (Hkeep : forall (dat : nat -> bytes) syn l, (forall x, In x l -> match x with DBind n _ => n <> j | DUnbind n => n <> j end) ->
    (forall n, n <> i -> dat n = f_data s n /\ syn n = f_synced s n) ->
    safe (mk_fs (f_dir s) (f_pend s ++ l) dat syn) j none (content :: L)).
  { intros dat syn l Hl Hd. apply safe_pend; auto. intros k' n Hn. apply Hd. intros ->. exact (Hfr k' j Hn). }
  assert (Hkeep0 : forall (dat : nat -> bytes) syn, (forall n, n <> i -> dat n = f_data s n /\ syn n = f_synced s n) ->
    safe (mk_fs (f_dir s) (f_pend s) dat syn) j none (content :: L)).
  { intros dat syn Hd. specialize (Hkeep dat syn [] ltac:(intros x []) Hd). rewrite app_nil_r in Hkeep. exact Hkeep. }
  assert (Hu : forall A (f : nat -> A) x n, n <> i -> upd f i x n = f n) by (intros; apply upd_other; assumption).
  assert (Hb1 : forall x, In x [DBind t i] -> match x with DBind n _ => n <> j | DUnbind n => n <> j end) by (intros x [<-|[]]; auto).
  assert (Hb2 : forall x, In x [DBind t i; DUnbind t] -> match x with DBind n _ => n <> j | DUnbind n => n <> j end) by (intros x [<-|[<-|[]]]; auto).
  unfold write_locked.
  destruct (o_create o); [|cbn [fst]; rewrite firstn_nil; exact Hs].
  assert (Hfin : forall n, n <> i -> forall b, upd (upd (f_data s) i []) i b n = f_data s n /\ upd (upd (f_synced s) i false) i false n = f_synced s n)
    by (intros n Hn b; rewrite !Hu by exact Hn; auto).
  assert (Hfail : forall b, forall l k, In l [ [OCreate t i; OWrite i b; OClose i; ORemove t]; [OCreate t i; OWrite i b; OSync i; ORemove t];
       [OCreate t i; OWrite i b; OSync i; OClose i; ORemove t] ] -> safe (steps s (firstn k l)) j none (content :: L)).
  { intros b l k' [<-|[<-|[<-|[]]]]; unfold steps;
      (destruct k' as [|k']; [exact Hs|]); cbn [firstn fold_left step];
      (destruct k' as [|k']; [apply Hkeep; [exact Hb1 | intros n Hn; rewrite !Hu by exact Hn; auto]|]); cbn [firstn fold_left step f_dir f_pend f_data f_synced];
      (destruct k' as [|k']; [apply Hkeep; [exact Hb1 | intros n Hn; rewrite !Hu by exact Hn; auto]|]); cbn [firstn fold_left step f_dir f_pend f_data f_synced];
      (destruct k' as [|k']; [apply Hkeep; [exact Hb1 | intros n Hn; rewrite !Hu by exact Hn; auto]|]); cbn [firstn fold_left step f_dir f_pend f_data f_synced];
      try (destruct k' as [|k']; [apply Hkeep; [exact Hb1 | intros n Hn; rewrite !Hu by exact Hn; auto]|]); cbn [firstn fold_left step f_dir f_pend f_data f_synced];
      rewrite ?firstn_nil; cbn [fold_left]; rewrite <- ?app_assoc; cbn [app]; (apply Hkeep; [exact Hb2 | intros n Hn; rewrite !Hu by exact Hn; auto]). }
  destruct (o_write o); [|apply (Hfail (firstn (o_wrote o) content)); cbn; auto].
  destruct (o_sync o); [|apply (Hfail content); cbn; auto].
  destruct (o_close o); [|apply (Hfail content); cbn; auto].
  destruct (o_rename o); [|apply (Hfail content); cbn; auto].
  cbn [fst]. destruct (Nat.le_gt_cases 5 k) as [Hk|Hk].
  - rewrite firstn_all2 by (cbn; lia). unfold steps. cbn [fold_left step f_dir f_pend f_data f_synced]. set (s1 := mk_fs _ _ _ _).
    assert (Hct : cur_dir s1 t = Some i).
    { unfold cur_dir, s1. cbn [f_pend f_dir]. rewrite cur_dir_app. cbn [dir_step]. apply upd_same. }
    rewrite Hct. intros k'. cbn [f_pend f_dir f_data f_synced]. unfold s1. cbn [f_pend f_dir f_data f_synced].
    destruct (Nat.le_gt_cases k' (length (f_pend s ++ [DBind t i]))) as [Hk'|Hk'].
    + rewrite firstn_app_le by exact Hk'.
      apply (Hkeep (upd (upd (f_data s) i []) i (upd (f_data s) i [] i ++ content)) (upd (upd (upd (f_synced s) i false) i false) i true) [DBind t i]); [exact Hb1|].
      intros n Hn. rewrite !Hu by exact Hn. auto.
    + rewrite firstn_app_gt by lia. rewrite fold_left_app.
      destruct (k' - length (f_pend s ++ [DBind t i])) as [|m] eqn:Hm; [lia|]. cbn [firstn fold_left dir_step].
      destruct m as [|m]; cbn [firstn fold_left dir_step]; rewrite ?firstn_nil; cbn [fold_left].
      * rewrite upd_same. rewrite !upd_same. split; [reflexivity|]. left. reflexivity.
      * rewrite upd_other by congruence. rewrite upd_same. rewrite !upd_same. split; [reflexivity|]. left. reflexivity.
  - assert (Hq : firstn k [OCreate t i; OWrite i content; OSync i; OClose i; ORename t j] = firstn k [OCreate t i; OWrite i content; OSync i; OClose i; ORemove t]).
    { destruct k as [|[|[|[|[|k]]]]]; try reflexivity. lia. }
    rewrite Hq. apply (Hfail content). cbn. auto.
Qed.

(** Any number of writes, each with any outcome, the last one cut short. *)
Definition attempt : Type := outcome * nat * nat * bytes.
Definition attempt_ops (j : nat) (a : attempt) : list op := let '(o, t, i, c) := a in fst (write_locked o t i j c).
Definition attempt_content (a : attempt) : bytes := snd a.
Fixpoint fresh_seq (s : fs) (j : nat) (l : list attempt) : Prop :=
  match l with
  | [] => True
  | a :: l' => (let '(o, t, i, c) := a in fresh_all s t i j) /\ fresh_seq (steps s (attempt_ops j a)) j l'
  end.
Lemma safe_weaken s j none L L' : (forall x, In x L -> In x L') -> safe s j none L -> safe s j none L'.
Proof. intros Hi Hs k. specialize (Hs k). destruct (fold_left _ _ _ j); [|exact Hs]. destruct Hs. auto. Qed.
Theorem writes_safe l : forall s j none L last k, safe s j none L -> fresh_seq s j (l ++ [last]) ->
  safe (steps s (flat_map (attempt_ops j) l ++ firstn k (attempt_ops j last))) j none (map attempt_content (l ++ [last]) ++ L).
Proof.
  induction l as [|a l IH]; intros s j none L last k Hs Hf; cbn [app flat_map map].
  - destruct last as [[[o t] i] c]. destruct Hf as [Hf _]. cbn [attempt_ops attempt_content snd]. apply machine_crash; assumption.
  - destruct Hf as [Ha Hf]. unfold steps. rewrite <- app_assoc, fold_left_app. fold (steps s (attempt_ops j a)).
    apply safe_weaken with (L := map attempt_content (l ++ [last]) ++ (attempt_content a :: L)).
    + intros x Hx. cbn [app]. apply in_app_or in Hx as [Hx|[Hx|Hx]]; [right; apply in_or_app; auto | left; exact Hx | right; apply in_or_app; auto].
    + apply (IH _ _ _ _ last k); [|exact Hf]. destruct a as [[[o t] i] c]. cbn [attempt_ops attempt_content snd].
      pose proof (machine_crash s o t i j c none L (length (fst (write_locked o t i j c))) Ha Hs) as Hm. rewrite firstn_all in Hm. exact Hm.
Qed.
(** After the process died, a reader sees what the last successful write wrote. *)
Fixpoint last_written (v : option bytes) (j : nat) (l : list attempt) : option bytes :=
  match l with
  | [] => v
  | a :: l' => last_written (let '(o, t, i, c) := a in if snd (write_locked o t i j c) then Some c else v) j l'
  end.
Lemma fresh_all_tmp s t i j : fresh_all s t i j -> fresh_tmp s t i j.
Proof. intros [H1 H2]. split; [exact H1|]. intros n. specialize (H2 (length (f_pend s)) n). rewrite firstn_all in H2. exact H2. Qed.
Theorem writes_view l : forall s j last k, fresh_seq s j (l ++ [last]) ->
  let v := view (steps s (flat_map (attempt_ops j) l ++ firstn k (attempt_ops j last))) j in
  v = last_written (view s j) j l \/ v = Some (attempt_content last).
Proof.
  cbv zeta. induction l as [|a l IH]; intros s j last k Hf; cbn [app flat_map last_written].
  - destruct last as [[[o t] i] c]. destruct Hf as [Hf _]. cbn [attempt_ops attempt_content snd]. apply fresh_all_tmp in Hf.
    exact (proj1 (process_death s o t i j c k Hf)).
  - destruct Hf as [Ha Hf]. unfold steps. rewrite <- app_assoc, fold_left_app. fold (steps s (attempt_ops j a)).
    specialize (IH (steps s (attempt_ops j a)) j last k Hf). destruct a as [[[o t] i] c]. cbn [attempt_ops] in *. apply fresh_all_tmp in Ha.
    destruct (process_death s o t i j c k Ha) as (_ & H1 & H2). destruct (snd (write_locked o t i j c)).
    + rewrite <- (H1 eq_refl). exact IH.
    + rewrite <- (H2 eq_refl). exact IH.
Qed.
