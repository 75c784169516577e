(** Small-step systems: a partial step function on actions; a schedule is a list of actions, an action that is not possible at its
    turn leaves the state as it is (a blocked or spinning goroutine). Used by the concurrency models. *)
From Verif Require Import Base.

Section Sys.
  Context {S A : Type}.
  Variable step : S -> A -> option S.

  Definition do (s : S) (a : A) : S := match step s a with Some s' => s' | None => s end.
  Definition run (s : S) (l : list A) : S := fold_left do l s.
  Definition stuck (s : S) : Prop := forall a, step s a = None.
  (** Number of steps of a schedule that really happened. *)
  Fixpoint effective (s : S) (l : list A) : nat :=
    match l with
    | [] => 0
    | a :: l' => match step s a with Some s' => 1 + effective s' l' | None => effective s l' end
    end.
  (** The first [n] actions of an infinite schedule. *)
  Fixpoint prefix (f : nat -> A) (n : nat) : list A := match n with O => [] | Datatypes.S n' => prefix f n' ++ [f n'] end.
  (** Every action is offered again and again. *)
  Definition fair (f : nat -> A) : Prop := forall n a, exists m, n <= m /\ f m = a.
End Sys.
