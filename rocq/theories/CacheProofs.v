(** The presence cache is linearizable and its operations return. *)
From Verif Require Import Base BaseLemmas BatchProofs SysModel SysProofs SyncModel CacheSpec.

(** ** Counting threads. *)
Definition b2n (b : bool) : nat := if b then 1 else 0.
Fixpoint tcount (f : cache_pc -> bool) (l : list thread) : nat :=
  match l with [] => 0 | x :: l' => b2n (f (pc x)) + tcount f l' end.

Lemma tcount_set f l t x y : nth_error l t = Some x -> tcount f (set_nth t y l) + b2n (f (pc x)) = tcount f l + b2n (f (pc y)).
Proof.
  revert t. induction l as [|z l IH]; intros [|t] E; cbn in *; try discriminate.
  - injection E as ->. lia.
  - specialize (IH t E). lia.
Qed.
Lemma tcount_zero f l t x : tcount f l = 0 -> nth_error l t = Some x -> f (pc x) = false.
Proof.
  revert t. induction l as [|z l IH]; intros [|t] E H; cbn in *; try discriminate.
  - injection H as ->. destruct (f (pc x)); [cbn in E; lia | reflexivity].
  - apply (IH t); [lia | exact H].
Qed.
Lemma tcount_pos f l : tcount f l <> 0 -> exists t x, nth_error l t = Some x /\ f (pc x) = true.
Proof.
  induction l as [|z l IH]; cbn; [lia|]. intros H. destruct (f (pc z)) eqn:E; [exists 0, z; split; [reflexivity | exact E]|].
  destruct (IH ltac:(cbn in H; lia)) as (t & x & Ht & Hx). exists (S t), x. split; assumption.
Qed.

Definition holds (idx : bool) (p : cache_pc) : bool :=
  match p with RCheck _ i | RBack _ i | RRead _ i | RDec _ i _ => Bool.eqb i idx | _ => false end.

(** ** The history with the moments of effect. *)
Inductive mark : Type :=
| MCall (t k : nat) (o : cache_op) | MLin (t k : nat) (o : cache_op) (r : bool) | MRet (t k : nat) (o : cache_op) (r : bool).
Definition visible (m : mark) : list event :=
  match m with MCall t k o => [Called t k o] | MLin _ _ _ _ => [] | MRet t k o r => [Returned t k o r] end.
Definition lin_of (m : mark) : list op_done := match m with MLin t k o r => [((t, k), (o, r))] | _ => [] end.
Definition mthread (m : mark) : nat := match m with MCall t _ _ | MLin t _ _ _ | MRet t _ _ _ => t end.
Definition mindex (m : mark) : nat := match m with MCall _ k _ | MLin _ k _ _ | MRet _ k _ _ => k end.

(** What has taken effect. *)
Definition added (h : list mark) (id : bytes) : Prop := exists t k ids r, In (MLin t k (AddIDs ids) r) h /\ In id ids.

Definition sub (a b : bytes -> Prop) : Prop := forall x, a x -> b x.
Definition ins (l : list bytes) : bytes -> Prop := fun x => In x l.

(** A well-formed history: in the order call, effect, return; effects of a set. *)
Definition mark_ok (h : list mark) (m : mark) : Prop :=
  match m with
  | MCall t k o => forall m', In m' h -> mthread m' = t -> k < mindex m'
  | MLin t k o r => In (MCall t k o) h /\ (forall o' r', ~ In (MLin t k o' r') h) /\
      (forall id, o = Contains id -> (r = true <-> added h id))
  | MRet t k o r => In (MLin t k o r) h
  end.
Inductive hist_ok : list mark -> Prop :=
| hist_nil : hist_ok []
| hist_snoc h m : hist_ok h -> mark_ok h m -> hist_ok (h ++ [m]).

(** Where a thread is in its operation. *)
Definition pc_ok (c : cache) (h : list mark) (t k : nat) (p : cache_pc) : Prop :=
  match p with
  | Idle => True
  | RLoad id | RInc id _ | RCheck id _ | RBack id _ => In (MCall t k (Contains id)) h /\ forall o r, ~ In (MLin t k o r) h
  | RRead id idx => In (MLin t k (Contains id) (mem id (get_set c idx))) h
  | RDec id idx r => In (MLin t k (Contains id) r) h
  | WLock ids | WShadow ids | WAdd1 ids _ | WSwitch ids => In (MCall t k (AddIDs ids)) h /\ forall o r, ~ In (MLin t k o r) h
  | WWait ids | WAdd0 ids _ | WBack ids | WUnlock ids => In (MLin t k (AddIDs ids) true) h
  end.

Definition noread (c : cache) (idx : bool) : Prop :=
  forall t th id, nth_error (threads c) t = Some th -> pc th <> RRead id idx.

Definition writer_ok (c : cache) (p : cache_pc) : Prop :=
  let s0 := ins (set0 c) in
  let s1 := ins (set1 c) in
  match p with
  | WShadow ids => cur c = false /\ sub s1 s0
  | WAdd1 ids rest => cur c = false /\ (forall x, s1 x -> s0 x \/ In x ids) /\ (forall x, In x ids -> s1 x \/ In x rest) /\
                      (forall x, In x rest -> In x ids) /\ noread c true
  | WSwitch ids => cur c = false /\ (forall x, s1 x -> s0 x \/ In x ids) /\ (forall x, In x ids -> s1 x) /\ noread c true
  | WWait ids => cur c = true /\ (forall x, s1 x -> s0 x \/ In x ids) /\ (forall x, In x ids -> s1 x)
  | WAdd0 ids rest => cur c = true /\ (forall x, In x ids -> s1 x) /\ (forall x, In x rest -> In x ids) /\
                      (forall x, s1 x -> s0 x \/ In x rest) /\ noread c false
  | WBack ids => cur c = true /\ sub s1 s0 /\ noread c false
  | WUnlock ids => cur c = false /\ sub s1 s0
  | _ => False
  end.

Record cinv (c : cache) (h : list mark) (owner : option nat) : Prop := {
  i_ev : events c = flat_map visible h;
  i_hist : hist_ok h;
  i_rc0 : rc0 c = tcount (holds false) (threads c);
  i_rc1 : rc1 c = tcount (holds true) (threads c);
  i_mu : mu c = match owner with None => false | Some _ => true end;
  i_own : forall t th, nth_error (threads c) t = Some th -> (critical (pc th) = true <-> owner = Some t);
  i_wr : match owner with
         | None => cur c = false /\ sub (ins (set1 c)) (ins (set0 c))
         | Some t => exists th, nth_error (threads c) t = Some th /\ writer_ok c (pc th)
         end;
  i_sub : sub (ins (set0 c)) (ins (set1 c));
  i_abs : forall x, In x (get_set c (cur c)) <-> added h x;
  i_pc : forall t th, nth_error (threads c) t = Some th -> pc_ok c h t (length (prog th)) (pc th);
  i_idx : forall t th m, nth_error (threads c) t = Some th -> In m h -> mthread m = t -> length (prog th) <= mindex m }.

Definition cache_inv (c : cache) : Prop := exists h owner, cinv c h owner.

Lemma mem_in id l : mem id l = true <-> In id l.
Proof.
  unfold mem. rewrite existsb_exists. split.
  - intros (x & Hx & E). apply beqb_eq in E. subst. exact Hx.
  - intros H. exists id. split; [exact H | apply beqb_refl].
Qed.

Lemma added_app h m id : added (h ++ [m]) id <-> added h id \/ (match m with MLin _ _ (AddIDs ids) _ => In id ids | _ => False end).
Proof.
  unfold added. split.
  - intros (t & k & ids & r & Hin & Hid). apply in_app_or in Hin. destruct Hin as [Hin|[->|[]]]; [left; exists t, k, ids, r; split; assumption|].
    right. exact Hid.
  - intros [(t & k & ids & r & Hin & Hid)|H].
    + exists t, k, ids, r. split; [apply in_or_app; left; exact Hin | exact Hid].
    + destruct m as [|t k o r|]; try destruct H. destruct o as [|ids]; [destruct H|]. exists t, k, ids, r. split; [|exact H].
      apply in_or_app. right. left. reflexivity.
Qed.

Lemma cache_inv_start progs : cache_inv (cache_start progs).
Proof.
  exists [], None. unfold cache_start.
  assert (N : forall t th, nth_error (map (fun p => {| pc := Idle; prog := p |}) progs) t = Some th -> pc th = Idle).
  { intros t th E. rewrite nth_error_map in E. destruct (nth_error progs t); cbn in E; [|discriminate E]. injection E as <-. reflexivity. }
  assert (Z : forall f, f Idle = false -> tcount f (map (fun p => {| pc := Idle; prog := p |}) progs) = 0).
  { intros f Hf. clear N. induction progs as [|p progs IH]; cbn; [reflexivity|]. rewrite Hf, IH. reflexivity. }
  constructor; cbn.
  - reflexivity.
  - constructor.
  - rewrite Z; reflexivity.
  - rewrite Z; reflexivity.
  - reflexivity.
  - intros t th E. rewrite (N t th E). cbn. split; discriminate.
  - split; [reflexivity|]. intros x Hx. exact Hx.
  - intros x Hx. exact Hx.
  - intros x. split; [intros [] | intros (t & k & ids & r & [] & _)].
  - intros t th E. rewrite (N t th E). exact I.
  - intros t th m _ [].
Qed.

(** *** Updating one thread. *)
Lemma upd_thread l t (th y : thread) : nth_error l t = Some th -> forall t', nth_error (set_nth t y l) t' = if t' =? t then Some y else nth_error l t'.
Proof. intros E t'. apply nth_error_set_nth. apply nth_error_Some. rewrite E. discriminate. Qed.

(** Steps that neither touch the sets nor the history, and keep the owner: only the thread's position changes (and the counts). *)
Section Step.
  Variables (c : cache) (h : list mark) (owner : option nat) (t : nat) (th : thread).
  Hypothesis HI : cinv c h owner.
  Hypothesis Hth : nth_error (threads c) t = Some th.

  Lemma own_set p' pr' owner' :
    (forall t', t' <> t -> (owner' = Some t' <-> owner = Some t')) -> (critical p' = true <-> owner' = Some t) ->
    forall t' th', nth_error (set_nth t {| pc := p'; prog := pr' |} (threads c)) t' = Some th' -> (critical (pc th') = true <-> owner' = Some t').
  Proof.
    intros Ho Hc t' th' E. rewrite (upd_thread _ _ _ _ Hth) in E. destruct (Nat.eqb_spec t' t) as [->|Hne].
    - injection E as <-. exact Hc.
    - rewrite (Ho t' Hne). exact (i_own _ _ _ HI t' th' E).
  Qed.

  Lemma noread_set c' idx p' pr' : threads c' = set_nth t {| pc := p'; prog := pr' |} (threads c) ->
    (forall id, p' <> RRead id idx) -> noread c idx -> noread c' idx.
  Proof.
    intros Et Hp Hn t' th' id E. rewrite Et, (upd_thread _ _ _ _ Hth) in E. destruct (Nat.eqb_spec t' t).
    - injection E as <-. cbn. apply Hp.
    - exact (Hn t' th' id E).
  Qed.

  Lemma pc_ok_mono c' h' t' k p : (forall m, In m h -> In m h') -> (forall m, In m h' -> In m h \/ mthread m <> t' \/ (match m with MLin _ _ _ _ => False | _ => True end)) ->
    (forall id idx, p = RRead id idx -> get_set c' idx = get_set c idx) -> pc_ok c h t' k p -> pc_ok c' h' t' k p.
  Proof.
    intros Hs Hb Hg H.
    assert (G : forall o, In (MCall t' k o) h /\ (forall o r, ~ In (MLin t' k o r) h) -> In (MCall t' k o) h' /\ (forall o r, ~ In (MLin t' k o r) h')).
    { intros o [H1 H2]. split; [apply Hs; exact H1|]. intros o' r' Hin. destruct (Hb _ Hin) as [H0|[H0|[]]]; [exact (H2 _ _ H0)|]. apply H0. reflexivity. }
    destruct p; cbn in *; auto. rewrite (Hg _ _ eq_refl). auto.
  Qed.

  Lemma idx_keep p' : forall t' th' m, nth_error (set_nth t {| pc := p'; prog := prog th |} (threads c)) t' = Some th' -> In m h -> mthread m = t' -> length (prog th') <= mindex m.
  Proof.
    intros t' th' m E Hin Hm. rewrite (upd_thread _ _ _ _ Hth) in E. destruct (Nat.eqb_spec t' t) as [->|Hne].
    - injection E as <-. cbn. exact (i_idx _ _ _ HI t th m Hth Hin Hm).
    - exact (i_idx _ _ _ HI t' th' m E Hin Hm).
  Qed.
End Step.

(** The conditions of a step, thread by thread. *)
Section Gen.
  Variables (c : cache) (h : list mark) (owner : option nat) (t : nat) (th : thread).
  Hypothesis HI : cinv c h owner.
  Hypothesis Hth : nth_error (threads c) t = Some th.

  Lemma step_gen c' hs owner' p' pr' :
    threads c' = set_nth t {| pc := p'; prog := pr' |} (threads c) ->
    events c' = events c ++ flat_map visible hs -> hist_ok (h ++ hs) ->
    rc0 c' + b2n (holds false (pc th)) = rc0 c + b2n (holds false p') ->
    rc1 c' + b2n (holds true (pc th)) = rc1 c + b2n (holds true p') ->
    mu c' = match owner' with None => false | Some _ => true end ->
    (forall t', t' <> t -> (owner' = Some t' <-> owner = Some t')) -> (critical p' = true <-> owner' = Some t) ->
    match owner' with
    | None => cur c' = false /\ sub (ins (set1 c')) (ins (set0 c'))
    | Some t0 => exists th, nth_error (threads c') t0 = Some th /\ writer_ok c' (pc th)
    end ->
    sub (ins (set0 c')) (ins (set1 c')) ->
    (forall x, In x (get_set c' (cur c')) <-> added (h ++ hs) x) ->
    pc_ok c' (h ++ hs) t (length pr') p' ->
    (forall t' th' id idx, t' <> t -> nth_error (threads c) t' = Some th' -> pc th' = RRead id idx -> get_set c' idx = get_set c idx) ->
    length pr' <= length (prog th) -> (forall m, In m hs -> mthread m = t /\ length pr' <= mindex m) ->
    cinv c' (h ++ hs) owner'.
  Proof.
    intros Et Ee Eh E0 E1 Em Ho Hc Hw Hs Ha Hp Hr Hl Hm. constructor.
    - rewrite Ee, flat_map_app, (i_ev _ _ _ HI). reflexivity.
    - exact Eh.
    - rewrite Et. pose proof (tcount_set (holds false) (threads c) t th {| pc := p'; prog := pr' |} Hth) as X. cbn [pc] in X.
      pose proof (i_rc0 _ _ _ HI). lia.
    - rewrite Et. pose proof (tcount_set (holds true) (threads c) t th {| pc := p'; prog := pr' |} Hth) as X. cbn [pc] in X.
      pose proof (i_rc1 _ _ _ HI). lia.
    - exact Em.
    - rewrite Et. exact (own_set c h owner t th HI Hth p' pr' owner' Ho Hc).
    - exact Hw.
    - exact Hs.
    - exact Ha.
    - intros t' th' E. rewrite Et, (upd_thread _ _ _ _ Hth) in E. destruct (Nat.eqb_spec t' t) as [->|Hne].
      + injection E as <-. exact Hp.
      + apply (pc_ok_mono c h c' (h ++ hs)); [intros m Hin; apply in_or_app; left; exact Hin| | |exact (i_pc _ _ _ HI t' th' E)].
        * intros m Hin. apply in_app_or in Hin. destruct Hin as [Hin|Hin]; [left; exact Hin|]. right. left. rewrite (proj1 (Hm m Hin)).
          intros ->. apply Hne. reflexivity.
        * intros id idx Ep. exact (Hr t' th' id idx Hne E Ep).
    - intros t' th' m E Hin Hmt. rewrite Et, (upd_thread _ _ _ _ Hth) in E. apply in_app_or in Hin. destruct (Nat.eqb_spec t' t) as [->|Hne].
      + injection E as <-. cbn [prog]. destruct Hin as [Hin|Hin].
        * pose proof (i_idx _ _ _ HI t th m Hth Hin Hmt). lia.
        * exact (proj2 (Hm m Hin)).
      + destruct Hin as [Hin|Hin]; [exact (i_idx _ _ _ HI t' th' m E Hin Hmt)|]. rewrite (proj1 (Hm m Hin)) in Hmt. congruence.
  Qed.

  (** A thread that is not the writer moves. *)
  Lemma writer_keep c' p' pr' t0 th0 :
    threads c' = set_nth t {| pc := p'; prog := pr' |} (threads c) -> set0 c' = set0 c -> set1 c' = set1 c -> cur c' = cur c ->
    (forall id idx, p' = RRead id idx -> cur c = idx) -> t0 <> t ->
    nth_error (threads c) t0 = Some th0 -> writer_ok c (pc th0) ->
    exists th, nth_error (threads c') t0 = Some th /\ writer_ok c' (pc th).
  Proof.
    intros Et E0 E1 Ec Hr Hne Hn Hw. exists th0. split.
    - rewrite Et, (upd_thread _ _ _ _ Hth). apply Nat.eqb_neq in Hne. rewrite Hne. exact Hn.
    - assert (N : forall idx, cur c <> idx -> noread c idx -> noread c' idx).
      { intros idx Hidx. apply (noread_set c t th Hth c' idx p' pr' Et). intros id Ep. exact (Hidx (Hr id idx Ep)). }
      destruct (pc th0); cbn in *; rewrite ?E0, ?E1, ?Ec; auto; repeat match goal with H : _ /\ _ |- _ => destruct H end; repeat split; auto;
        apply N; auto; congruence.
  Qed.

  (** Steps of a reader or of a caller that touch neither sets nor the mutex nor the current index. *)
  Lemma reader_step c' hs p' pr' :
    critical (pc th) = false -> critical p' = false -> (forall id idx, p' = RRead id idx -> cur c = idx) ->
    threads c' = set_nth t {| pc := p'; prog := pr' |} (threads c) ->
    set0 c' = set0 c -> set1 c' = set1 c -> cur c' = cur c -> mu c' = mu c ->
    events c' = events c ++ flat_map visible hs -> hist_ok (h ++ hs) ->
    rc0 c' + b2n (holds false (pc th)) = rc0 c + b2n (holds false p') ->
    rc1 c' + b2n (holds true (pc th)) = rc1 c + b2n (holds true p') ->
    pc_ok c' (h ++ hs) t (length pr') p' ->
    (forall m, In m hs -> match m with MLin _ _ (AddIDs _) _ => False | _ => True end) ->
    length pr' <= length (prog th) -> (forall m, In m hs -> mthread m = t /\ length pr' <= mindex m) ->
    cinv c' (h ++ hs) owner.
  Proof.
    intros Hc Hc' Hr Et E0 E1 Ec Em Ee Eh R0 R1 Hp Hno Hl Hm.
    assert (Hnt : owner <> Some t). { intros Eo. apply (i_own _ _ _ HI t th Hth) in Eo. congruence. }
    apply (step_gen c' hs owner p' pr'); try assumption.
    - rewrite Em. exact (i_mu _ _ _ HI).
    - tauto.
    - split; intros X; [congruence | destruct (Hnt X)].
    - pose proof (i_wr _ _ _ HI) as W. destruct owner as [t0|]; [|rewrite E0, E1, Ec; exact W].
      destruct W as (th0 & Hn & Hw). apply (writer_keep c' p' pr' t0 th0); try assumption. congruence.
    - rewrite E0, E1. exact (i_sub _ _ _ HI).
    - intros x. unfold get_set. rewrite Ec, E0, E1. fold (get_set c (cur c)). rewrite (i_abs _ _ _ HI x). unfold added. split.
      + intros (t1 & k & ids & r & Hin & Hid). exists t1, k, ids, r. split; [apply in_or_app; left; exact Hin | exact Hid].
      + intros (t1 & k & ids & r & Hin & Hid). apply in_app_or in Hin. destruct Hin as [Hin|Hin]; [exists t1, k, ids, r; split; assumption|].
        destruct (Hno _ Hin).
    - intros t' th' id idx _ _ _. unfold get_set. rewrite E0, E1. reflexivity.
  Qed.

  (** Steps of the writer without effect on the history. *)
  Lemma writer_step c' hs owner' p' pr' :
    (owner = Some t \/ owner = None) -> (owner' = Some t \/ owner' = None) -> holds false (pc th) = false -> holds true (pc th) = false ->
    holds false p' = false -> holds true p' = false -> rc0 c' = rc0 c -> rc1 c' = rc1 c ->
    threads c' = set_nth t {| pc := p'; prog := pr' |} (threads c) ->
    events c' = events c ++ flat_map visible hs -> hist_ok (h ++ hs) ->
    mu c' = match owner' with None => false | Some _ => true end ->
    (critical p' = true <-> owner' = Some t) ->
    match owner' with None => cur c' = false /\ sub (ins (set1 c')) (ins (set0 c')) | Some _ => writer_ok c' p' end ->
    sub (ins (set0 c')) (ins (set1 c')) ->
    (forall x, In x (get_set c' (cur c')) <-> added (h ++ hs) x) ->
    pc_ok c' (h ++ hs) t (length pr') p' ->
    (forall t' th' id idx, t' <> t -> nth_error (threads c) t' = Some th' -> pc th' = RRead id idx -> get_set c' idx = get_set c idx) ->
    length pr' <= length (prog th) -> (forall m, In m hs -> mthread m = t /\ length pr' <= mindex m) ->
    cinv c' (h ++ hs) owner'.
  Proof.
    intros Ho Ho' H0 H1 H0' H1' R0 R1 Et Ee Eh Em Hc Hw Hs Ha Hp Hr Hl Hm.
    apply (step_gen c' hs owner' p' pr'); try assumption.
    - rewrite H0, H0', R0. reflexivity.
    - rewrite H1, H1', R1. reflexivity.
    - intros t' Hne. destruct Ho as [-> | ->], Ho' as [-> | ->]; split; intros X; try discriminate X; try (injection X as X; congruence).
    - destruct Ho' as [-> | ->]; [|exact Hw]. exists {| pc := p'; prog := pr' |}. split; [|exact Hw].
      rewrite Et, (upd_thread _ _ _ _ Hth), Nat.eqb_refl. reflexivity.
  Qed.
End Gen.

Lemma hist_call h t k o : hist_ok h -> (forall m, In m h -> mthread m = t -> k < mindex m) -> hist_ok (h ++ [MCall t k o]).
Proof. intros H1 H2. constructor; assumption. Qed.

Lemma added_nil h x : added (h ++ []) x <-> added h x.
Proof. rewrite app_nil_r. reflexivity. Qed.

Lemma cache_step_inv c t c' : cache_inv c -> cache_step c t = Some c' -> cache_inv c'.
Proof.
  intros (h & owner & HI) E. unfold cache_step in E. destruct (nth_error (threads c) t) as [th|] eqn:Hth; [|discriminate E].
  pose proof (i_pc _ _ _ HI t th Hth) as Hp. pose proof (i_own _ _ _ HI t th Hth) as Ho.
  pose proof (fun m => i_idx _ _ _ HI t th m Hth) as Hx.
  pose proof (i_hist _ _ _ HI) as Hh. pose proof (i_wr _ _ _ HI) as Hw.
  destruct (pc th) as [|id|id idx|id idx|id idx|id idx|id idx r|ids|ids|ids rest|ids|ids|ids rest|ids|ids] eqn:Epc; cbn [pc_ok critical] in Hp, Ho.
  - (* Idle: a call *)
    destruct (prog th) as [|o pr'] eqn:Epr; [discriminate E|]. injection E as <-.
    exists (h ++ [MCall t (length pr') o]), owner.
    apply (reader_step c h owner t th HI Hth _ [MCall t (length pr') o] (match o with Contains id => RLoad id | AddIDs ids => WLock ids end) pr');
      try (rewrite Epc); try reflexivity.
    + destruct o; reflexivity.
    + destruct o; discriminate.
    + apply hist_call; [exact Hh|]. intros m Hm Em. specialize (Hx m Hm Em). cbn in Hx. lia.
    + destruct o; cbn; lia.
    + destruct o; cbn; lia.
    + assert (G : In (MCall t (length pr') o) (h ++ [MCall t (length pr') o]) /\ (forall o' r', ~ In (MLin t (length pr') o' r') (h ++ [MCall t (length pr') o]))).
      { split; [apply in_or_app; right; left; reflexivity|]. intros o' r' Hin. apply in_app_or in Hin. destruct Hin as [Hin|[Hin|[]]]; [|discriminate Hin].
        specialize (Hx _ Hin eq_refl). cbn in Hx. lia. }
      destruct o; exact G.
    + intros m [<-|[]]. exact I.
    + rewrite Epr. cbn. lia.
    + intros m [<-|[]]. split; [reflexivity | cbn; lia].
  - (* RLoad *)
    injection E as <-. exists (h ++ []), owner.
    apply (reader_step c h owner t th HI Hth _ [] (RInc id (cur c)) (prog th)); try (rewrite Epc); try reflexivity; try solve [intros m Hm; destruct Hm].
    + discriminate.
    + rewrite app_nil_r. reflexivity.
    + rewrite app_nil_r. exact Hh.
    + rewrite app_nil_r. exact Hp.
  - (* RInc *)
    injection E as <-. exists (h ++ []), owner.
    apply (reader_step c h owner t th HI Hth _ [] (RCheck id idx) (prog th)); try (rewrite Epc); try reflexivity; try solve [intros m Hm; destruct Hm].
    + discriminate.
    + rewrite app_nil_r. reflexivity.
    + rewrite app_nil_r. exact Hh.
    + destruct idx; cbn; lia.
    + destruct idx; cbn; lia.
    + rewrite app_nil_r. exact Hp.
  - (* RCheck *)
    injection E as <-. destruct (Bool.eqb (cur c) idx) eqn:Ec.
    + apply eqb_prop in Ec. exists (h ++ [MLin t (length (prog th)) (Contains id) (mem id (get_set c idx))]), owner.
      apply (reader_step c h owner t th HI Hth _ [MLin t (length (prog th)) (Contains id) (mem id (get_set c idx))] (RRead id idx) (prog th)); try (rewrite Epc); try reflexivity.
      * intros id' idx' X. injection X as <- <-. exact Ec.
      * cbn. rewrite app_nil_r. reflexivity.
      * constructor; [exact Hh|]. cbn. split; [exact (proj1 Hp)|]. split; [intros o' r'; exact (proj2 Hp o' r')|].
        intros id' X. injection X as <-. rewrite mem_in, <- Ec. exact (i_abs _ _ _ HI id).
      * apply in_or_app. right. left. reflexivity.
      * intros m [<-|[]]. exact I.
      * intros m [<-|[]]. split; [reflexivity | cbn; lia].
    + exists (h ++ []), owner.
      apply (reader_step c h owner t th HI Hth _ [] (RBack id idx) (prog th)); try (rewrite Epc); try reflexivity; try solve [intros m Hm; destruct Hm].
      * discriminate.
      * rewrite app_nil_r. reflexivity.
      * rewrite app_nil_r. exact Hh.
      * rewrite app_nil_r. exact Hp.
  - (* RBack *)
    injection E as <-. exists (h ++ []), owner.
    assert (P : rc0 c = tcount (holds false) (threads c) /\ rc1 c = tcount (holds true) (threads c)) by (split; apply HI).
    pose proof (tcount_zero (holds idx) (threads c) t th) as Z. rewrite Epc in Z. cbn in Z. rewrite eqb_reflx in Z.
    apply (reader_step c h owner t th HI Hth _ [] (RLoad id) (prog th)); try (rewrite Epc); try reflexivity; try solve [intros m Hm; destruct Hm].
    + discriminate.
    + rewrite app_nil_r. reflexivity.
    + rewrite app_nil_r. exact Hh.
    + destruct idx; cbn; [lia|]. destruct (rc0 c) as [|r0] eqn:E0; [|cbn; lia]. specialize (Z ltac:(lia) Hth). discriminate Z.
    + destruct idx; cbn; [|lia]. destruct (rc1 c) as [|r1] eqn:E0; [|cbn; lia]. specialize (Z ltac:(lia) Hth). discriminate Z.
    + rewrite app_nil_r. exact Hp.
  - (* RRead *)
    injection E as <-. exists (h ++ []), owner.
    apply (reader_step c h owner t th HI Hth _ [] (RDec id idx (mem id (get_set c idx))) (prog th)); try (rewrite Epc); try reflexivity; try solve [intros m Hm; destruct Hm].
    + discriminate.
    + rewrite app_nil_r. reflexivity.
    + rewrite app_nil_r. exact Hh.
    + rewrite app_nil_r. exact Hp.
  - (* RDec *)
    injection E as <-. exists (h ++ [MRet t (length (prog th)) (Contains id) r]), owner.
    assert (P : rc0 c = tcount (holds false) (threads c) /\ rc1 c = tcount (holds true) (threads c)) by (split; apply HI).
    pose proof (tcount_zero (holds idx) (threads c) t th) as Z. rewrite Epc in Z. cbn in Z. rewrite eqb_reflx in Z.
    apply (reader_step c h owner t th HI Hth _ [MRet t (length (prog th)) (Contains id) r] Idle (prog th)); try (rewrite Epc); try reflexivity.
    + discriminate.
    + constructor; [exact Hh | exact Hp].
    + destruct idx; cbn; [lia|]. destruct (rc0 c) as [|r0] eqn:E0; [|cbn; lia]. specialize (Z ltac:(lia) Hth). discriminate Z.
    + destruct idx; cbn; [|lia]. destruct (rc1 c) as [|r1] eqn:E0; [|cbn; lia]. specialize (Z ltac:(lia) Hth). discriminate Z.
    + intros m [<-|[]]. exact I.
    + intros m [<-|[]]. split; [reflexivity | cbn; lia].
  - (* WLock *)
    destruct (mu c) eqn:Em; [discriminate E|]. injection E as <-. rewrite (i_mu _ _ _ HI) in Em. destruct owner as [t0|]; [discriminate Em|].
    exists (h ++ []), (Some t).
    apply (writer_step c h None t th HI Hth _ [] (Some t) (WShadow ids) (prog th)); try (rewrite Epc); try reflexivity; try solve [intros m Hm; destruct Hm].
    + right. reflexivity.
    + left. reflexivity.
    + rewrite app_nil_r. reflexivity.
    + rewrite app_nil_r. exact Hh.
    + cbn. tauto.
    + exact Hw.
    + exact (i_sub _ _ _ HI).
    + intros x. rewrite added_nil. exact (i_abs _ _ _ HI x).
    + rewrite app_nil_r. exact Hp.
  - (* WShadow *)
    destruct (Nat.eqb_spec (rc1 c) 0) as [Er|Er]; [|discriminate E]. injection E as <-.
    assert (Eo : owner = Some t) by (apply Ho; reflexivity). rewrite Eo in Hw. destruct Hw as (th0 & Hn & Hw).
    rewrite Hth in Hn. injection Hn as <-. rewrite Epc in Hw. cbn in Hw. destruct Hw as [Hc Hs].
    exists (h ++ []), (Some t).
    apply (writer_step c h owner t th HI Hth _ [] (Some t) (WAdd1 ids ids) (prog th)); try (rewrite Epc); try reflexivity; try solve [intros m Hm; destruct Hm].
    + left. exact Eo.
    + left. reflexivity.
    + rewrite app_nil_r. reflexivity.
    + rewrite app_nil_r. exact Hh.
    + cbn. rewrite (i_mu _ _ _ HI), Eo. reflexivity.
    + cbn. tauto.
    + cbn. split; [exact Hc|]. split; [intros x Hx'; left; exact (Hs x Hx')|]. split; [intros x Hx'; right; exact Hx'|]. split; [auto|].
      eapply (noread_set c t th Hth _ true (WAdd1 ids ids) (prog th)); [reflexivity|discriminate|].
      intros t' th' id' E' X. rewrite (i_rc1 _ _ _ HI) in Er. pose proof (tcount_zero (holds true) (threads c) t' th' Er E') as Z. rewrite X in Z. discriminate Z.
    + exact (i_sub _ _ _ HI).
    + intros x. rewrite added_nil. exact (i_abs _ _ _ HI x).
    + rewrite app_nil_r. exact Hp.
  - (* WAdd1 *)
    assert (Eo : owner = Some t) by (apply Ho; reflexivity). rewrite Eo in Hw. destruct Hw as (th0 & Hn & Hw).
    rewrite Hth in Hn. injection Hn as <-. rewrite Epc in Hw. cbn in Hw. destruct Hw as (Hc & H1 & H2 & H3 & H4).
    destruct rest as [|x rest]; injection E as <-; exists (h ++ []), (Some t).
    + apply (writer_step c h owner t th HI Hth _ [] (Some t) (WSwitch ids) (prog th)); try (rewrite Epc); try reflexivity; try solve [intros m Hm; destruct Hm].
      * left. exact Eo.
      * left. reflexivity.
      * rewrite app_nil_r. reflexivity.
      * rewrite app_nil_r. exact Hh.
      * cbn. rewrite (i_mu _ _ _ HI), Eo. reflexivity.
      * cbn. tauto.
      * cbn. split; [exact Hc|]. split; [exact H1|]. split; [intros y Hy; destruct (H2 y Hy) as [Z|[]]; exact Z|].
        eapply (noread_set c t th Hth _ true (WSwitch ids) (prog th)); [reflexivity|discriminate | exact H4].
      * exact (i_sub _ _ _ HI).
      * intros y. rewrite added_nil. exact (i_abs _ _ _ HI y).
      * rewrite app_nil_r. exact Hp.
    + apply (writer_step c h owner t th HI Hth _ [] (Some t) (WAdd1 ids rest) (prog th)); try (rewrite Epc); try reflexivity; try solve [intros m Hm; destruct Hm].
      * left. exact Eo.
      * left. reflexivity.
      * rewrite app_nil_r. reflexivity.
      * rewrite app_nil_r. exact Hh.
      * cbn. rewrite (i_mu _ _ _ HI), Eo. reflexivity.
      * cbn. tauto.
      * cbn. unfold ins in *. cbn. split; [exact Hc|]. split; [|split; [|split]].
        -- intros y [<-|Hy]; [right; apply H3; left; reflexivity | exact (H1 y Hy)].
        -- intros y Hy. destruct (H2 y Hy) as [Z|[<-|Z]]; [left; right; exact Z | left; left; reflexivity | right; exact Z].
        -- intros y Hy. apply H3. right. exact Hy.
        -- eapply (noread_set c t th Hth _ true (WAdd1 ids rest) (prog th)); [reflexivity|discriminate | exact H4].
      * intros y Hy. right. exact (i_sub _ _ _ HI y Hy).
      * intros y. rewrite added_nil. pose proof (i_abs _ _ _ HI y) as A. cbn. rewrite Hc in *. exact A.
      * rewrite app_nil_r. exact Hp.
      * intros t' th' id' idx' Hne E' X. cbn. destruct idx'; [|reflexivity]. destruct (H4 t' th' id' E' X).
  - (* WSwitch *)
    injection E as <-.
    assert (Eo : owner = Some t) by (apply Ho; reflexivity). rewrite Eo in Hw. destruct Hw as (th0 & Hn & Hw).
    rewrite Hth in Hn. injection Hn as <-. rewrite Epc in Hw. cbn in Hw. destruct Hw as (Hc & H1 & H2 & H4).
    exists (h ++ [MLin t (length (prog th)) (AddIDs ids) true]), (Some t).
    apply (writer_step c h owner t th HI Hth _ [MLin t (length (prog th)) (AddIDs ids) true] (Some t) (WWait ids) (prog th)); try (rewrite Epc); try reflexivity.
    + left. exact Eo.
    + left. reflexivity.
    + cbn. rewrite app_nil_r. reflexivity.
    + constructor; [exact Hh|]. cbn. split; [exact (proj1 Hp)|]. split; [exact (proj2 Hp)|]. discriminate.
    + cbn. rewrite (i_mu _ _ _ HI), Eo. reflexivity.
    + cbn. tauto.
    + cbn. split; [reflexivity|]. split; [exact H1 | exact H2].
    + exact (i_sub _ _ _ HI).
    + intros y. rewrite added_app, <- (i_abs _ _ _ HI y). cbn. rewrite Hc. split; [exact (H1 y)|].
      intros [X|X]; [exact (i_sub _ _ _ HI y X) | exact (H2 y X)].
    + apply in_or_app. right. left. reflexivity.
    + intros m [<-|[]]. split; [reflexivity | cbn; lia].
  - (* WWait *)
    destruct (Nat.eqb_spec (rc0 c) 0) as [Er|Er]; [|discriminate E]. injection E as <-.
    assert (Eo : owner = Some t) by (apply Ho; reflexivity). rewrite Eo in Hw. destruct Hw as (th0 & Hn & Hw).
    rewrite Hth in Hn. injection Hn as <-. rewrite Epc in Hw. cbn in Hw. destruct Hw as (Hc & H1 & H2).
    exists (h ++ []), (Some t).
    apply (writer_step c h owner t th HI Hth _ [] (Some t) (WAdd0 ids ids) (prog th)); try (rewrite Epc); try reflexivity; try solve [intros m Hm; destruct Hm].
    + left. exact Eo.
    + left. reflexivity.
    + rewrite app_nil_r. reflexivity.
    + rewrite app_nil_r. exact Hh.
    + cbn. rewrite (i_mu _ _ _ HI), Eo. reflexivity.
    + cbn. tauto.
    + cbn. split; [exact Hc|]. split; [exact H2|]. split; [auto|]. split; [exact H1|].
      eapply (noread_set c t th Hth _ false (WAdd0 ids ids) (prog th)); [reflexivity|discriminate|].
      intros t' th' id' E' X. rewrite (i_rc0 _ _ _ HI) in Er. pose proof (tcount_zero (holds false) (threads c) t' th' Er E') as Z. rewrite X in Z. discriminate Z.
    + exact (i_sub _ _ _ HI).
    + intros x. rewrite added_nil. exact (i_abs _ _ _ HI x).
    + rewrite app_nil_r. exact Hp.
  - (* WAdd0 *)
    assert (Eo : owner = Some t) by (apply Ho; reflexivity). rewrite Eo in Hw. destruct Hw as (th0 & Hn & Hw).
    rewrite Hth in Hn. injection Hn as <-. rewrite Epc in Hw. cbn in Hw. destruct Hw as (Hc & H1 & H2 & H3 & H4).
    destruct rest as [|x rest]; injection E as <-; exists (h ++ []), (Some t).
    + apply (writer_step c h owner t th HI Hth _ [] (Some t) (WBack ids) (prog th)); try (rewrite Epc); try reflexivity; try solve [intros m Hm; destruct Hm].
      * left. exact Eo.
      * left. reflexivity.
      * rewrite app_nil_r. reflexivity.
      * rewrite app_nil_r. exact Hh.
      * cbn. rewrite (i_mu _ _ _ HI), Eo. reflexivity.
      * cbn. tauto.
      * cbn. split; [exact Hc|]. split; [intros y Hy; destruct (H3 y Hy) as [Z|[]]; exact Z|].
        eapply (noread_set c t th Hth _ false (WBack ids) (prog th)); [reflexivity|discriminate | exact H4].
      * exact (i_sub _ _ _ HI).
      * intros y. rewrite added_nil. exact (i_abs _ _ _ HI y).
      * rewrite app_nil_r. exact Hp.
    + apply (writer_step c h owner t th HI Hth _ [] (Some t) (WAdd0 ids rest) (prog th)); try (rewrite Epc); try reflexivity; try solve [intros m Hm; destruct Hm].
      * left. exact Eo.
      * left. reflexivity.
      * rewrite app_nil_r. reflexivity.
      * rewrite app_nil_r. exact Hh.
      * cbn. rewrite (i_mu _ _ _ HI), Eo. reflexivity.
      * cbn. tauto.
      * cbn. unfold ins in *. cbn. split; [exact Hc|]. split; [exact H1|]. split; [|split].
        -- intros y Hy. apply H2. right. exact Hy.
        -- intros y Hy. destruct (H3 y Hy) as [Z|[<-|Z]]; [left; right; exact Z | left; left; reflexivity | right; exact Z].
        -- eapply (noread_set c t th Hth _ false (WAdd0 ids rest) (prog th)); [reflexivity|discriminate | exact H4].
      * intros y [<-|Hy]; [apply H1; apply H2; left; reflexivity | exact (i_sub _ _ _ HI y Hy)].
      * intros y. rewrite added_nil. pose proof (i_abs _ _ _ HI y) as A. cbn. rewrite Hc in *. exact A.
      * rewrite app_nil_r. exact Hp.
      * intros t' th' id' idx' Hne E' X. cbn. destruct idx'; [reflexivity|]. destruct (H4 t' th' id' E' X).
  - (* WBack *)
    injection E as <-.
    assert (Eo : owner = Some t) by (apply Ho; reflexivity). rewrite Eo in Hw. destruct Hw as (th0 & Hn & Hw).
    rewrite Hth in Hn. injection Hn as <-. rewrite Epc in Hw. cbn in Hw. destruct Hw as (Hc & H1 & H2).
    exists (h ++ []), (Some t).
    apply (writer_step c h owner t th HI Hth _ [] (Some t) (WUnlock ids) (prog th)); try (rewrite Epc); try reflexivity; try solve [intros m Hm; destruct Hm].
    + left. exact Eo.
    + left. reflexivity.
    + rewrite app_nil_r. reflexivity.
    + rewrite app_nil_r. exact Hh.
    + cbn. rewrite (i_mu _ _ _ HI), Eo. reflexivity.
    + cbn. tauto.
    + cbn. split; [reflexivity | exact H1].
    + exact (i_sub _ _ _ HI).
    + intros y. rewrite added_nil, <- (i_abs _ _ _ HI y). cbn. rewrite Hc. split; [exact (i_sub _ _ _ HI y) | exact (H1 y)].
    + rewrite app_nil_r. exact Hp.
  - (* WUnlock *)
    injection E as <-.
    assert (Eo : owner = Some t) by (apply Ho; reflexivity). rewrite Eo in Hw. destruct Hw as (th0 & Hn & Hw).
    rewrite Hth in Hn. injection Hn as <-. rewrite Epc in Hw. cbn in Hw. destruct Hw as (Hc & H1).
    exists (h ++ [MRet t (length (prog th)) (AddIDs ids) true]), None.
    apply (writer_step c h owner t th HI Hth _ [MRet t (length (prog th)) (AddIDs ids) true] None Idle (prog th)); try (rewrite Epc); try reflexivity.
    + left. exact Eo.
    + right. reflexivity.
    + constructor; [exact Hh | exact Hp].
    + cbn. split; discriminate.
    + cbn. split; [exact Hc | exact H1].
    + exact (i_sub _ _ _ HI).
    + intros y. rewrite added_app. cbn. rewrite <- (i_abs _ _ _ HI y). cbn. tauto.
    + intros m [<-|[]]. split; [reflexivity | cbn; lia].
Qed.
