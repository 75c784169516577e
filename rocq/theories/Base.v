(** Common vocabulary of all models: bytes, byte strings, results, list helpers. No proofs here. *)
From Coq Require Export List Arith NArith ZArith Lia Bool.
From Coq Require Export Init.Byte Strings.Byte.
Export ListNotations.

(** A Go byte slice. [nil] and the empty slice are identified unless a model says otherwise. *)
Definition bytes := list byte.

(** Outcome of a Go function: normal return, error return, or run-time panic. *)
Inductive res (A : Type) : Type :=
| Ok (a : A)
| Err
| Panic.
Arguments Ok {A} a.
Arguments Err {A}.
Arguments Panic {A}.

(** bytes.Equal. *)
Fixpoint beqb (a b : bytes) : bool :=
  match a, b with
  | [], [] => true
  | x :: a', y :: b' => Byte.eqb x y && beqb a' b'
  | _, _ => false
  end.

(** bytes.Compare: lexicographic on unsigned bytes, a proper prefix is smaller. *)
Fixpoint bcmp (a b : bytes) : comparison :=
  match a, b with
  | [], [] => Eq
  | [], _ :: _ => Lt
  | _ :: _, [] => Gt
  | x :: a', y :: b' =>
      match N.compare (Byte.to_N x) (Byte.to_N y) with
      | Eq => bcmp a' b'
      | c => c
      end
  end.

(** [byte(n)] for a non-negative Go int: conversion keeps the low 8 bits. *)
Definition byte_of_nat (n : nat) : byte :=
  match Byte.of_N (N.of_nat n mod 256) with
  | Some b => b
  | None => x00
  end.

(** Bit [i] of a byte, counted from the most significant one (i = 0..7). *)
Definition byte_bit (b : byte) (i : nat) : bool :=
  N.testbit (Byte.to_N b) (N.of_nat (7 - i)).

(** Assignment [l[i] = x] to a slice element in range. Out of range it leaves [l] unchanged (Go panics). *)
Fixpoint set_nth {A : Type} (i : nat) (x : A) (l : list A) : list A :=
  match l, i with
  | [], _ => []
  | _ :: l', O => x :: l'
  | y :: l', S i' => y :: set_nth i' x l'
  end.
