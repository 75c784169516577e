(** Interleavings of programs with separate footprints: every schedule ends like the sequential one. *)
From Verif Require Import Base TrieModel TrieSpec BaseLemmas TrieParModel.

(** ** Paths, heaps *)
Lemma path_eqb_spec a b : reflect (a = b) (path_eqb a b).
Proof.
  revert b. induction a as [|x a IH]; intros [|y b]; cbn [path_eqb]; try (constructor; congruence).
  destruct (Bool.eqb_spec x y) as [->|Hn]; cbn [andb].
  - destruct (IH b) as [->|Hn]; constructor; congruence.
  - constructor. congruence.
Qed.
Lemma heap_set_eq hp l b : heap_set hp l b l = b.
Proof. unfold heap_set. destruct (path_eqb_spec l l); congruence. Qed.
Lemma heap_set_ne hp l b x : x <> l -> heap_set hp l b x = hp x.
Proof. unfold heap_set. destruct (path_eqb_spec x l); congruence. Qed.

(** ** Sequential runs: the left half to its end, then the right half *)
Fixpoint seqp (p : prog) (s : st) : mresult * st :=
  match p with
  | Ret r => (r, s)
  | Do a k => seqp (k (fst (act a s))) (snd (act a s))
  | Par p q k =>
      seqp (k (fst (seqp p s)) (fst (seqp q (snd (seqp p s))))) (snd (seqp q (snd (seqp p s))))
  end.

(** ** Cells of memory *)
Inductive cell : Type :=
| CHash (x : bytes)
| CSlot (l : path) (i : nat).

Definition cell_eq (c : cell) (s t : st) : Prop :=
  match c with
  | CHash x => live (db s) x = live (db t) x /\ updated (db s) x = updated (db t) x /\
               removed (db s) x = removed (db t) x /\ store (db s) x = store (db t) x
  | CSlot l i => nth_error (heap s l) i = nth_error (heap t l) i
  end.

(** All accesses to the all-zero hash are deletions of the node of an empty tree: nobody reads it. *)
Definition Z : cell := CHash zero_hash.
Definition ag (P : cell -> Prop) (s t : st) : Prop := forall c, P c -> c <> Z -> cell_eq c s t.
Definition anyc : cell -> Prop := fun _ => True.
Definition sim (s t : st) : Prop := ag anyc s t.

Definition touch (a : access) (c : cell) : Prop :=
  match a with
  | AGet l i => c = CSlot l i
  | ASet l i _ => c = CSlot l i
  | ANew l _ => exists i, c = CSlot l i
  | ALive x l | AUpd x l | ADb x l | ASaveLive x l | ASaveUpd x l => c = CHash x \/ exists i, c = CSlot l i
  | ADelLive x | ADelUpd x => c = CHash x /\ c <> Z
  | ARemove x => c = CHash x
  end.

Lemma cell_eq_refl c s : cell_eq c s s.
Proof. destruct c; cbn; auto. Qed.
Lemma cell_eq_sym c s t : cell_eq c s t -> cell_eq c t s.
Proof. destruct c; cbn; intuition congruence. Qed.
Lemma cell_eq_trans c s t u : cell_eq c s t -> cell_eq c t u -> cell_eq c s u.
Proof. destruct c; cbn; intuition congruence. Qed.
Lemma ag_refl P s : ag P s s.
Proof. intros c _ _. apply cell_eq_refl. Qed.
Lemma ag_sym P s t : ag P s t -> ag P t s.
Proof. intros Ha c Hc Hz. apply cell_eq_sym. auto. Qed.
Lemma ag_trans P s t u : ag P s t -> ag P t u -> ag P s u.
Proof. intros Ha Hb c Hc Hz. eapply cell_eq_trans; eauto. Qed.
Lemma ag_incl (P Q : cell -> Prop) s t : (forall c, P c -> Q c) -> ag Q s t -> ag P s t.
Proof. intros Hi Ha c Hc Hz. auto. Qed.

Lemma list_ext {A} (l l' : list A) : (forall i, nth_error l i = nth_error l' i) -> l = l'.
Proof.
  revert l'. induction l as [|x l IH]; intros [|y l'] Hq; [reflexivity| | |].
  - specialize (Hq 0). discriminate.
  - specialize (Hq 0). discriminate.
  - f_equal; [specialize (Hq 0); cbn in Hq; congruence|]. apply IH. intros i. apply (Hq (S i)).
Qed.
Lemma slot_nth_error i b : slot i b = match nth_error b i with Some x => x | None => [] end.
Proof.
  unfold slot. revert i. induction b as [|x b IH]; intros [|i]; cbn; auto.
Qed.
Lemma nth_error_set {A} i j (v : A) l :
  nth_error (set_nth i v l) j =
  if Nat.eqb j i then match nth_error l j with Some _ => Some v | None => None end else nth_error l j.
Proof.
  revert i j. induction l as [|x l IH]; intros [|i] [|j]; cbn [set_nth nth_error Nat.eqb]; auto.
  destruct (Nat.eqb j i); reflexivity.
Qed.

(** Cells are comparable. *)
Lemma hash_dec (x y : bytes) : x = y \/ x <> y.
Proof. destruct (beqb_spec x y); auto. Qed.
Lemma slot_dec l i l' i' : CSlot l i = CSlot l' i' \/ CSlot l i <> CSlot l' i'.
Proof.
  destruct (path_eqb_spec l l') as [->|Hn]; [|right; congruence].
  destruct (Nat.eq_dec i i') as [->|Hn]; [auto|right; congruence].
Qed.
Lemma cell_dec (c d : cell) : c = d \/ c <> d.
Proof.
  destruct c as [x|l i], d as [y|l' i']; try (right; discriminate); [|apply slot_dec].
  destruct (hash_dec x y) as [->|Hn]; [auto|right; congruence].
Qed.
Lemma some_slot_dec c l : (exists i, c = CSlot l i) \/ ~ exists i, c = CSlot l i.
Proof.
  destruct c as [x|l' i]; [right; intros [j Hj]; discriminate|].
  destruct (path_eqb_spec l' l) as [->|Hn]; [eauto|right; intros [j Hj]; congruence].
Qed.
Lemma touch_dec a c : touch a c \/ ~ touch a c.
Proof.
  destruct a as [l i|l i v|l b|x l|x l|x l|x l|x l|x|x|x]; cbn [touch]; try apply cell_dec; try apply some_slot_dec.
  1-5: destruct (cell_dec c (CHash x)); [auto|]; destruct (some_slot_dec c l); tauto.
  1-2: destruct (cell_dec c (CHash x)); [|tauto]; destruct (cell_dec c Z); tauto.
Qed.

(** ** Locality of an access *)
Lemma heap_cell_eq s t l : (forall i, cell_eq (CSlot l i) s t) -> heap s l = heap t l.
Proof. intros Hc. apply list_ext. exact Hc. Qed.

Ltac heapcases :=
  repeat match goal with
         | |- context [heap_set _ ?l _ ?x] =>
             unfold heap_set at 1; destruct (path_eqb_spec x l) as [?|?]; subst
         | |- context [map_set _ ?k _ ?x] =>
             unfold map_set at 1; destruct (beqb_spec x k) as [?|?]; subst
         end.

Ltac samecell E :=
  match goal with
  | |- context [nth_error (heap _ ?l) ?j] => exact (E (CSlot l j) ltac:(assumption) ltac:(discriminate))
  end.

(** An access answers and changes memory according to the cells it touches. *)
Lemma act_ag a (Q : cell -> Prop) s t :
  (forall c, touch a c -> Q c /\ c <> Z) -> ag Q s t ->
  fst (act a s) = fst (act a t) /\ ag Q (snd (act a s)) (snd (act a t)).
Proof.
  intros Ht Ha.
  assert (Hc : forall c, touch a c -> cell_eq c s t) by (intros c Htc; destruct (Ht c Htc); apply Ha; assumption).
  destruct a as [l i|l i v|l b|x l|x l|x l|x l|x l|x|x|x]; cbn [touch] in *.
  - specialize (Hc _ eq_refl). cbn in Hc. cbn [act fst snd]. split; [|exact Ha].
    rewrite !slot_nth_error, Hc. reflexivity.
  - cbn [act fst snd]. split; [reflexivity|]. specialize (Hc _ eq_refl). cbn in Hc.
    intros [y|l' j] Hq Hz; cbn [cell_eq db heap]; [exact (Ha (CHash y) Hq Hz)|].
    unfold heap_set. destruct (path_eqb_spec l' l) as [->|Hn]; [|exact (Ha _ Hq Hz)].
    rewrite !nth_error_set. destruct (Nat.eqb_spec j i) as [->|Hj]; [rewrite Hc; reflexivity|].
    exact (Ha _ Hq Hz).
  - cbn [act fst snd]. split; [reflexivity|].
    intros [y|l' j] Hq Hz; cbn [cell_eq db heap]; [exact (Ha (CHash y) Hq Hz)|].
    unfold heap_set. destruct (path_eqb_spec l' l) as [->|Hn]; [reflexivity|exact (Ha _ Hq Hz)].
  - pose proof (Hc _ (or_introl eq_refl)) as Hx. cbn in Hx. destruct Hx as (Hx & _ & _ & _). cbn [act]. rewrite <- Hx.
    destruct (live (db s) x) as [b|]; cbn [fst snd]; split; try reflexivity; [|exact Ha].
    intros [y|l' j] Hq Hz; cbn [cell_eq db heap]; [exact (Ha (CHash y) Hq Hz)|].
    unfold heap_set. destruct (path_eqb_spec l' l) as [->|Hn]; [reflexivity|exact (Ha _ Hq Hz)].
  - pose proof (Hc _ (or_introl eq_refl)) as Hx. cbn in Hx. destruct Hx as (_ & Hx & _ & _). cbn [act]. rewrite <- Hx.
    destruct (updated (db s) x) as [b|]; cbn [fst snd]; split; try reflexivity; [|exact Ha].
    intros [y|l' j] Hq Hz; cbn [cell_eq db heap]; [exact (Ha (CHash y) Hq Hz)|].
    unfold heap_set. destruct (path_eqb_spec l' l) as [->|Hn]; [reflexivity|exact (Ha _ Hq Hz)].
  - pose proof (Hc _ (or_introl eq_refl)) as Hx. cbn in Hx. destruct Hx as (_ & _ & _ & Hx). cbn [act]. rewrite <- Hx.
    destruct (store (db s) x) as [[|b0 bs]|]; cbn [fst snd]; split; try reflexivity; try exact Ha.
    intros [y|l' j] Hq Hz; cbn [cell_eq db heap]; [exact (Ha (CHash y) Hq Hz)|].
    unfold heap_set. destruct (path_eqb_spec l' l) as [->|Hn]; [reflexivity|exact (Ha _ Hq Hz)].
  - assert (Hh : heap s l = heap t l) by (apply heap_cell_eq; eauto).
    cbn [act fst snd]. split; [reflexivity|].
    intros [y|l' j] Hq Hz; [|exact (Ha _ Hq Hz)]. pose proof (Ha (CHash y) Hq Hz) as Hy. cbn in Hy |- *.
    rewrite Hh. unfold map_set. destruct (beqb y x); tauto.
  - assert (Hh : heap s l = heap t l) by (apply heap_cell_eq; eauto).
    cbn [act fst snd]. split; [reflexivity|].
    intros [y|l' j] Hq Hz; [|exact (Ha _ Hq Hz)]. pose proof (Ha (CHash y) Hq Hz) as Hy. cbn in Hy |- *.
    rewrite Hh. unfold map_set. destruct (beqb y x); tauto.
  - cbn [act fst snd]. split; [reflexivity|].
    intros [y|l' j] Hq Hz; [|exact (Ha _ Hq Hz)]. pose proof (Ha (CHash y) Hq Hz) as Hy. cbn in Hy |- *.
    unfold map_set. destruct (beqb y x); tauto.
  - cbn [act fst snd]. split; [reflexivity|].
    intros [y|l' j] Hq Hz; [|exact (Ha _ Hq Hz)]. pose proof (Ha (CHash y) Hq Hz) as Hy. cbn in Hy |- *.
    unfold map_set. destruct (beqb y x); tauto.
  - cbn [act fst snd]. split; [reflexivity|].
    intros [y|l' j] Hq Hz; [|exact (Ha _ Hq Hz)]. pose proof (Ha (CHash y) Hq Hz) as Hy. cbn in Hy |- *.
    unfold map_set. destruct (beqb y x); tauto.
Qed.

(** It leaves the other cells as they are. *)
Lemma act_other a c s : ~ touch a c -> c <> Z -> cell_eq c s (snd (act a s)).
Proof.
  intros Ht Hz. 
  assert (Hload : forall (o : option batch) l, ~ (exists i, c = CSlot l i) ->
    cell_eq c s (snd (match o with Some b => ([x01], mk_st (db s) (heap_set (heap s) l b)) | None => ([], s) end))).
  { intros [b|] l Hl; cbn [snd]; [|apply cell_eq_refl]. destruct c as [y|l' j]; cbn; auto.
    rewrite heap_set_ne; [reflexivity|]. intros ->. eauto. }
  destruct a as [l i|l i v|l b|x l|x l|x l|x l|x l|x|x|x]; cbn [touch] in *; cbn [act];
    try (apply Hload; tauto); try apply cell_eq_refl; cbn [snd].
  - destruct c as [y|l' j]; cbn; auto. unfold heap_set. destruct (path_eqb_spec l' l) as [->|Hn]; [|reflexivity].
    rewrite nth_error_set. destruct (Nat.eqb_spec j i) as [->|Hj]; congruence.
  - destruct c as [y|l' j]; cbn; auto. rewrite heap_set_ne; [reflexivity|]. intros ->. eauto.
  - destruct c as [y|l' j]; cbn; auto. unfold map_set. destruct (beqb_spec y x) as [->|Hn]; tauto.
  - destruct c as [y|l' j]; cbn; auto. unfold map_set. destruct (beqb_spec y x) as [->|Hn]; tauto.
  - destruct c as [y|l' j]; cbn; auto. unfold map_set. destruct (beqb_spec y x) as [->|Hn]; tauto.
  - destruct c as [y|l' j]; cbn; auto. unfold map_set. destruct (beqb_spec y x) as [->|Hn]; tauto.
  - destruct c as [y|l' j]; cbn; auto. unfold map_set. destruct (beqb_spec y x) as [->|Hn]; [congruence|tauto].
Qed.

(** Accesses to separate cells commute. *)
Lemma act_comm a b s :
  (forall c, touch a c -> c <> Z) -> (forall c, touch b c -> c <> Z) -> (forall c, touch a c -> touch b c -> False) ->
  fst (act b (snd (act a s))) = fst (act b s) /\ fst (act a (snd (act b s))) = fst (act a s) /\
  sim (snd (act b (snd (act a s)))) (snd (act a (snd (act b s)))).
Proof.
  intros Ha Hb Hd.
  assert (Aa : ag (touch b) s (snd (act a s))) by (intros c Hc Hz; apply act_other; [intros Hx; eauto | exact Hz]).
  assert (Ab : ag (touch a) s (snd (act b s))) by (intros c Hc Hz; apply act_other; [intros Hx; eauto | exact Hz]).
  destruct (act_ag b (touch b) _ _ ltac:(auto) Aa) as [R1 S1].
  destruct (act_ag a (touch a) _ _ ltac:(auto) Ab) as [R2 S2].
  split; [symmetry; exact R1|]. split; [symmetry; exact R2|].
  intros c _ Hz. destruct (touch_dec b c) as [Tb|Tb].
  - assert (Ta : ~ touch a c) by (intros Hx; eauto).
    eapply cell_eq_trans; [apply cell_eq_sym, (S1 c Tb Hz)|]. apply act_other; assumption.
  - eapply cell_eq_trans; [apply cell_eq_sym, act_other; assumption|].
    destruct (touch_dec a c) as [Ta|Ta]; [apply (S2 c Ta Hz)|].
    eapply cell_eq_trans; [apply cell_eq_sym, act_other; assumption|].
    eapply cell_eq_trans; [apply act_other; [exact Tb | exact Hz]|]. apply act_other; assumption.
Qed.

(** ** Footprints: all accesses on the sequential run are inside [P]; parallel halves have separate footprints. *)
Fixpoint foot (p : prog) (P : cell -> Prop) (s : st) : Prop :=
  match p with
  | Ret _ => True
  | Do a k => (forall c, touch a c -> P c /\ c <> Z) /\ foot (k (fst (act a s))) P (snd (act a s))
  | Par p q k =>
      (exists P1 P2 : cell -> Prop, (forall c, P1 c -> P c) /\ (forall c, P2 c -> P c) /\ (forall c, P1 c -> P2 c -> False) /\
                     foot p P1 s /\ foot q P2 (snd (seqp p s))) /\
      foot (k (fst (seqp p s)) (fst (seqp q (snd (seqp p s))))) P (snd (seqp q (snd (seqp p s))))
  end.

Lemma foot_incl p : forall (P Q : cell -> Prop) s, (forall c, P c -> Q c) -> foot p P s -> foot p Q s.
Proof.
  induction p as [r|a k IH|p IHp q IHq k IHk]; intros P Q s Hi; cbn [foot]; [auto| |].
  - intros [Ht Hf]. split; [|eapply IH; eauto]. intros c Hc. destruct (Ht c Hc). auto.
  - intros [(P1 & P2 & I1 & I2 & Hd & F1 & F2) Hk]. split; [|eapply IHk; eauto].
    exists P1, P2. split; [auto|]. split; [auto|]. auto.
Qed.

(** Runs from memories that agree on more than the footprint agree. *)
Lemma foot_ag p : forall (P Q : cell -> Prop) s t, (forall c, P c -> Q c) -> foot p P s -> ag Q s t ->
  foot p P t /\ fst (seqp p s) = fst (seqp p t) /\ ag Q (snd (seqp p s)) (snd (seqp p t)).
Proof.
  induction p as [r|a k IH|p IHp q IHq k IHk]; intros P Q s t Hi Hf Ha; cbn [foot seqp] in *.
  - cbn. auto.
  - destruct Hf as [Ht Hf]. destruct (act_ag a Q s t) as [Hr Hs]; [|exact Ha|].
    { intros c Hc. destruct (Ht c Hc). auto. }
    rewrite <- Hr. destruct (IH _ P Q _ _ Hi Hf Hs) as (F & R & S). auto.
  - destruct Hf as [(P1 & P2 & I1 & I2 & Hd & F1 & F2) Hk].
    destruct (IHp P1 Q s t ltac:(auto) F1 Ha) as (G1 & R1 & S1).
    destruct (IHq P2 Q _ _ ltac:(auto) F2 S1) as (G2 & R2 & S2).
    rewrite <- R1, <- R2. destruct (IHk _ _ P Q _ _ Hi Hk S2) as (G3 & R3 & S3).
    split; [|auto]. split; [|exact G3]. exists P1, P2. auto.
Qed.

Lemma foot_frame p : forall P s c, foot p P s -> ~ P c -> c <> Z -> cell_eq c s (snd (seqp p s)).
Proof.
  induction p as [r|a k IH|p IHp q IHq k IHk]; intros P s c Hf Hc Hz; cbn [foot seqp] in *.
  - apply cell_eq_refl.
  - destruct Hf as [Ht Hf]. eapply cell_eq_trans; [apply (act_other a); [|exact Hz]|eapply IH; eauto].
    intros Hx. apply Ht in Hx. tauto.
  - destruct Hf as [(P1 & P2 & I1 & I2 & Hd & F1 & F2) Hk].
    eapply cell_eq_trans; [eapply IHp; [exact F1| |exact Hz]; auto|].
    eapply cell_eq_trans; [eapply IHq; [exact F2| |exact Hz]; auto|]. eapply IHk; eauto.
Qed.

(** An access outside the footprint can be made before or after the run. *)
Lemma foot_comm p : forall P a s, foot p P s -> (forall c, touch a c -> ~ P c /\ c <> Z) ->
  fst (seqp p (snd (act a s))) = fst (seqp p s) /\
  sim (snd (seqp p (snd (act a s)))) (snd (act a (snd (seqp p s)))) /\
  fst (act a (snd (seqp p s))) = fst (act a s).
Proof.
  induction p as [r|b k IH|p IHp q IHq k IHk]; intros P a s Hf Hc; cbn [foot seqp] in *.
  - cbn. split; [reflexivity|]. split; [apply ag_refl | reflexivity].
  - destruct Hf as [Ht Hf].
    destruct (act_comm a b s) as (R1 & R2 & S).
    { intros c Hx. apply Hc. exact Hx. }
    { intros c Hx. apply Ht. exact Hx. }
    { intros c Ha Hb. apply Ht in Hb. apply Hc in Ha. tauto. }
    rewrite R1. destruct (IH (fst (act b s)) P a (snd (act b s)) Hf Hc) as (A1 & A2 & A3).
    assert (Hf2 : foot (k (fst (act b s))) P (snd (act a (snd (act b s))))).
    { eapply (foot_ag _ P P); [auto|exact Hf|]. intros c Hp Hz. apply act_other; [|exact Hz].
      intros Hx. apply Hc in Hx. tauto. }
    destruct (foot_ag _ P anyc _ _ ltac:(unfold anyc; auto) Hf2 (ag_sym _ _ _ S)) as (_ & B2 & B3).
    split; [congruence|]. split; [|congruence].
    eapply ag_trans; [apply ag_sym; exact B3 | exact A2].
  - destruct Hf as [(P1 & P2 & I1 & I2 & Hd & F1 & F2) Hk].
    assert (Hsame : forall (Q : cell -> Prop) t, (forall c, Q c -> P c) -> ag Q t (snd (act a t))).
    { intros Q t Hq c Hp Hz. apply act_other; [|exact Hz]. intros Hx. apply Hc in Hx. destruct Hx as [Hx _]. auto. }
    destruct (IHp P1 a s F1) as (A1 & A2 & A3).
    { intros c Hx. apply Hc in Hx. destruct Hx. auto. }
    destruct (IHq P2 a _ F2) as (B1 & B2 & B3).
    { intros c Hx. apply Hc in Hx. destruct Hx. auto. }
    set (s1 := snd (seqp p s)) in *. set (s2 := snd (seqp q s1)) in *.
    destruct (IHk _ _ P a s2 Hk Hc) as (C1 & C2 & C3).
    assert (F2' : foot q P2 (snd (act a s1))).
    { eapply (foot_ag _ P2 P2); [auto|exact F2|]. apply Hsame. exact I2. }
    destruct (foot_ag q P2 anyc _ _ ltac:(unfold anyc; auto) F2' (ag_sym _ _ _ A2)) as (_ & D2 & D3).
    rewrite A1, <- D2, B1.
    assert (S2 : sim (snd (act a s2)) (snd (seqp q (snd (seqp p (snd (act a s))))))).
    { eapply ag_trans; [apply ag_sym; exact B2 | exact D3]. }
    assert (Hk' : foot (k (fst (seqp p s)) (fst (seqp q s1))) P (snd (act a s2))).
    { eapply (foot_ag _ P P); [auto|exact Hk|]. apply Hsame. auto. }
    destruct (foot_ag _ P anyc _ _ ltac:(unfold anyc; auto) Hk' S2) as (_ & E2 & E3).
    split; [congruence|]. split; [|congruence].
    eapply ag_trans; [apply ag_sym; exact E3 | exact C2].
Qed.

(** ** Steps *)
Definition oact (o : option access) (s : st) : st := match o with Some a => snd (act a s) | None => s end.
Definition otouch (o : option access) (c : cell) : Prop := match o with Some a => touch a c | None => False end.

Lemma foot_right p q (P1 P2 : cell -> Prop) s : (forall c, P1 c -> P2 c -> False) -> foot p P1 s -> foot q P2 (snd (seqp p s)) ->
  foot q P2 s /\ ag P2 s (snd (seqp p s)).
Proof.
  intros Hd F1 F2.
  assert (Ha : ag P2 s (snd (seqp p s))) by (intros c Hc Hz; eapply foot_frame; eauto).
  split; [|exact Ha]. eapply (foot_ag q P2 P2); [auto|exact F2|]. apply ag_sym. exact Ha.
Qed.

Lemma step_local p s p' s' : step p s p' s' -> forall P, foot p P s ->
  exists o, s' = oact o s /\ (forall c, otouch o c -> P c /\ c <> Z) /\
            forall t, ag P s t -> step p t p' (oact o t).
Proof.
  induction 1 as [a k s|p q k s p' s' Hs IH|p q k s q' s' Hs IH|a b k s]; intros P Hf; cbn [foot] in Hf.
  - destruct Hf as [Ht _]. exists (Some a). split; [reflexivity|]. split; [exact Ht|].
    intros t Ha. destruct (act_ag a P s t Ht Ha) as [-> _]. constructor.
  - destruct Hf as [(P1 & P2 & I1 & I2 & Hd & F1 & F2) _]. destruct (IH P1 F1) as (o & Ho & Ht & Hst).
    exists o. split; [exact Ho|]. split; [intros c Hc; destruct (Ht c Hc); auto|].
    intros t Ha. constructor. apply Hst. eapply ag_incl; eauto.
  - destruct Hf as [(P1 & P2 & I1 & I2 & Hd & F1 & F2) _].
    destruct (foot_right p q P1 P2 s Hd F1 F2) as [F2' _]. destruct (IH P2 F2') as (o & Ho & Ht & Hst).
    exists o. split; [exact Ho|]. split; [intros c Hc; destruct (Ht c Hc); auto|].
    intros t Ha. apply step_right. apply Hst. eapply ag_incl; eauto.
  - exists None. split; [reflexivity|]. split; [intros c []|]. intros t _. constructor.
Qed.

(** A step keeps the footprint and what the sequential run would yield. *)
Theorem step_foot p : forall P s p' s', foot p P s -> step p s p' s' ->
  foot p' P s' /\ fst (seqp p' s') = fst (seqp p s) /\ sim (snd (seqp p' s')) (snd (seqp p s)).
Proof.
  assert (Hany : forall P : cell -> Prop, forall c, P c -> anyc c) by (unfold anyc; auto).
  induction p as [r|a k IH|p IHp q IHq k IHk]; intros P s p' s' Hf Hs; cbn [foot] in Hf.
  - inversion Hs.
  - inversion Hs; subst. destruct Hf as [Ht Hf]. split; [exact Hf|]. cbn [seqp]. split; [reflexivity | apply ag_refl].
  - pose proof Hf as [(P1 & P2 & I1 & I2 & Hd & F1 & F2) Hk].
    inversion Hs as [|? ? ? ? p2 ? Hp|? ? ? ? q2 ? Hq|]; subst.
    + (* left *)
      destruct (IHp P1 s p2 s' F1 Hp) as (G1 & R1 & S1).
      destruct (foot_ag q P2 anyc _ _ (Hany _) F2 (ag_sym _ _ _ S1)) as (G2 & R2 & S2).
      destruct (foot_ag _ P anyc _ _ (Hany _) Hk S2) as (G3 & R3 & S3).
      cbn [foot seqp]. rewrite R1, <- R2. split; [|split; [congruence | apply ag_sym; exact S3]].
      split; [|exact G3]. exists P1, P2. auto.
    + (* right *)
      destruct (foot_right p q P1 P2 s Hd F1 F2) as [F2' Aq].
      destruct (step_local _ _ _ _ Hq P2 F2') as (o & -> & Ht & Hst).
      specialize (Hst _ Aq). destruct (IHq P2 _ q2 _ F2 Hst) as (G2 & R2 & S2).
      assert (F1' : foot p P1 (oact o s)).
      { eapply (foot_ag p P1 P1); [auto|exact F1|]. intros c Hc Hz. destruct o as [a|]; [|apply cell_eq_refl].
        apply act_other; [|exact Hz]. intros Hx. apply Ht in Hx. destruct Hx. eauto. }
      assert (Hcm : fst (seqp p (oact o s)) = fst (seqp p s) /\ sim (snd (seqp p (oact o s))) (oact o (snd (seqp p s)))).
      { destruct o as [a|]; cbn [oact]; [|split; [reflexivity|apply ag_refl]].
        destruct (foot_comm p P1 a s F1) as (A1 & A2 & _); [|auto].
        intros c Hx. apply Ht in Hx. destruct Hx. split; [|assumption]. eauto. }
      destruct Hcm as [R1 S1].
      destruct (foot_ag q2 P2 anyc _ _ (Hany _) G2 (ag_sym _ _ _ S1)) as (G3 & R3 & S3).
      assert (S4 : sim (snd (seqp q (snd (seqp p s)))) (snd (seqp q2 (snd (seqp p (oact o s)))))).
      { eapply ag_trans; [apply ag_sym; exact S2 | exact S3]. }
      destruct (foot_ag _ P anyc _ _ (Hany _) Hk S4) as (G5 & R5 & S5).
      cbn [foot seqp]. rewrite R1, <- R3, R2. split; [|split; [congruence | apply ag_sym; exact S5]].
      split; [|exact G5]. exists P1, P2. auto.
    + (* join *)
      cbn [foot seqp fst snd] in *. split; [exact Hk|]. split; [reflexivity | apply ag_refl].
Qed.

Theorem steps_foot p s p' s' : steps p s p' s' -> forall P, foot p P s ->
  foot p' P s' /\ fst (seqp p' s') = fst (seqp p s) /\ sim (snd (seqp p' s')) (snd (seqp p s)).
Proof.
  induction 1 as [p s|p s p1 s1 p2 s2 Hs Hss IH]; intros P Hf.
  - split; [exact Hf|]. split; [reflexivity | apply ag_refl].
  - destruct (step_foot _ _ _ _ _ Hf Hs) as (F1 & R1 & S1). destruct (IH P F1) as (F2 & R2 & S2).
    split; [exact F2|]. split; [congruence|]. eapply ag_trans; eauto.
Qed.

(** ** No schedule goes on for ever, and only finished programs stop *)
Definition next (c c' : prog * st) : Prop := step (fst c') (snd c') (fst c) (snd c).

Lemma progress p s : (exists r, p = Ret r) \/ exists p' s', step p s p' s'.
Proof.
  revert s. induction p as [r|a k IH|p IHp q IHq k IHk]; intros s; [eauto| |].
  - right. eexists. eexists. constructor.
  - right. destruct (IHp s) as [[a ->]|(p' & s' & Hp)].
    + destruct (IHq s) as [[b ->]|(q' & s' & Hq)].
      * eexists. eexists. apply step_join.
      * eexists. eexists. apply step_right. exact Hq.
    + eexists. eexists. apply step_left. exact Hp.
Qed.

(** Finite height of a program, whatever memory answers. *)
Inductive finite : prog -> Prop :=
| fin p : (forall s p' s', step p s p' s' -> finite p') -> finite p.

Lemma finite_par p : finite p -> forall q, finite q -> forall k, (forall a b, finite (k a b)) -> finite (Par p q k).
Proof.
  induction 1 as [p Hp IHp]. induction 1 as [q Hq IHq]. intros k Hk. constructor. intros s p' s' Hs.
  inversion Hs; subst; [eapply IHp; eauto; constructor; exact Hq | eapply IHq; eauto | apply Hk].
Qed.
Theorem finite_all p : finite p.
Proof.
  induction p as [r|a k IH|p IHp q IHq k IHk].
  - constructor. intros s p' s' Hs. inversion Hs.
  - constructor. intros s p' s' Hs. inversion Hs; subst. apply IH.
  - apply finite_par; auto.
Qed.
Lemma terminates p : finite p -> forall s, Acc next (p, s).
Proof.
  induction 1 as [p Hp IH]. intros s. constructor. intros [p' s'] Hs. eapply IH. exact Hs.
Qed.
Lemma finishes p : finite p -> forall s, exists r s', steps p s (Ret r) s'.
Proof.
  induction 1 as [p Hp IH]. intros s. destruct (progress p s) as [[r ->]|(p' & s' & Hs)].
  - exists r, s. constructor.
  - destruct (IH _ _ _ Hs s') as (r & s2 & Hss). exists r, s2. econstructor; eauto.
Qed.

(** ** Composition *)
Lemma seqp_bind p f s : seqp (bindp p f) s = seqp (f (fst (seqp p s))) (snd (seqp p s)).
Proof.
  revert s. induction p as [r|a k IH|p IHp q IHq k IHk]; intros s; cbn [bindp seqp]; auto.
Qed.
Lemma foot_bind p f P s : foot p P s -> foot (f (fst (seqp p s))) P (snd (seqp p s)) -> foot (bindp p f) P s.
Proof.
  revert s. induction p as [r|a k IH|p IHp q IHq k IHk]; intros s; cbn [bindp seqp foot]; auto.
  - intros [Ht Hf] Hg. split; [exact Ht|]. apply IH; assumption.
  - intros [Hp Hk] Hg. split; [exact Hp|]. apply IHk; assumption.
Qed.
