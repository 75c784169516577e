(** Lexicographic order on lists of numbers of the same length. *)
From Verif Require Import Base.
From Coq Require Import Wellfounded.

Inductive lex : list nat -> list nat -> Prop :=
| lex_here x y l l' : x < y -> length l = length l' -> lex (x :: l) (y :: l')
| lex_next x l l' : lex l l' -> lex (x :: l) (x :: l').

Lemma lex_length l l' : lex l l' -> length l = length l'.
Proof. induction 1; cbn; congruence. Qed.

Lemma lex_acc n : forall l, length l = n -> Acc lex l.
Proof.
  induction n as [|n IH]; intros l Hl.
  - destruct l; [|discriminate]. constructor. intros l' H. inversion H.
  - destruct l as [|x l]; [discriminate|]. injection Hl as Hl. revert l Hl.
    induction x as [x IHx] using (well_founded_induction lt_wf). intros l Hl.
    assert (HA : forall l, Acc lex l -> length l = n -> Acc lex (x :: l)).
    { clear l Hl. intros l HA. induction HA as [l _ IHl]. intros Hl. constructor. intros l' H.
      inversion H as [a b m m' Hab Hm|a m m' Hm]; subst.
      - apply IHx; [exact Hab | reflexivity || congruence].
      - apply IHl; [exact Hm|]. rewrite (lex_length _ _ Hm). reflexivity. }
    exact (HA l (IH l Hl) Hl).
Qed.
Lemma lex_wf : well_founded lex.
Proof. intros l. exact (lex_acc (length l) l eq_refl). Qed.

Lemma lex_app c a b : lex a b -> lex (c ++ a) (c ++ b).
Proof. induction c as [|x c IH]; intros H; [exact H | cbn; apply lex_next, IH, H]. Qed.
Lemma lex_app_r a b c c' : lex a b -> length c = length c' -> lex (a ++ c) (b ++ c').
Proof.
  induction 1 as [x y l l' H1 H2|x l l' H1 IH]; intros Hc; cbn.
  - apply lex_here; [exact H1|]. rewrite !app_length. lia.
  - apply lex_next, IH, Hc.
Qed.
