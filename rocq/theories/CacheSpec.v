(** What the presence cache must look like from outside: a set that only grows, every operation taking effect at one moment
    between its call and its return. *)
From Verif Require Import Base SyncModel.

Definition before {A} (l : list A) (x y : A) : Prop := exists a b c, l = a ++ x :: b ++ y :: c.

Definition op_done : Type := (nat * nat) * (cache_op * bool).

(** A sequential execution of a set: Contains answers whether an earlier AddIDs had the id. *)
Definition legal (lin : list op_done) : Prop :=
  forall a b k id r, lin = a ++ (k, (Contains id, r)) :: b ->
    (r = true <-> exists k' ids r', In (k', (AddIDs ids, r')) a /\ In id ids).

Definition linearizable (ev : list event) : Prop :=
  exists lin : list op_done,
    legal lin /\ NoDup (map fst lin) /\
    (forall t k o r, In (Returned t k o r) ev -> In ((t, k), (o, r)) lin) /\
    (forall t k o r, In ((t, k), (o, r)) lin -> In (Called t k o) ev) /\
    (forall t k o r t' k' o' r', In ((t, k), (o, r)) lin -> In ((t', k'), (o', r')) lin ->
       before ev (Returned t k o r) (Called t' k' o') -> before lin ((t, k), (o, r)) ((t', k'), (o', r'))).
