(** Vocabulary for the parallel update: histories of TrieSpec.v in which every update runs under any schedule. *)
From Verif Require Import Base TrieModel TrieSpec TrieParModel.

Section ParSpec.
  Variable H : bytes -> bytes.
  Variable limit : nat.

  (** One operation: an update with a non-empty batch ends as one of its schedules ends (whatever the batches of earlier
      updates were, [hp]), everything else as in TrieSpec.v. [None] is an error. *)
  Inductive par_op : op -> bytes -> cdb -> option bytes -> cdb -> Prop :=
  | po_update atomic b root s hp r s' :
      b <> [] -> steps (trie_update_p H limit atomic root b) (mk_st s hp) (Ret r) s' ->
      par_op (OpUpdate atomic b) root s (option_map (fun x => firstn HashLength (fst x)) r) (db s')
  | po_empty atomic root s : par_op (OpUpdate atomic []) root s (Some root) s
  | po_other o root s r s' :
      (forall atomic b, o <> OpUpdate atomic b) -> run_op H limit o root s = (r, s') ->
      par_op o root s (match r with Ok x => Some x | _ => None end) s'.

  Inductive par_run : list op -> bytes -> cdb -> option bytes -> cdb -> Prop :=
  | pr_nil root s : par_run [] root s (Some root) s
  | pr_error o ops root s s' : par_op o root s None s' -> par_run (o :: ops) root s None s'
  | pr_cons o ops root s r s' r' s'' :
      par_op o root s (Some r) s' -> par_run ops r s' r' s'' -> par_run (o :: ops) root s r' s''.
End ParSpec.

(** The same nodes in all maps, and the same rows. *)
Definition same_at (x : bytes) (s t : cdb) : Prop :=
  live s x = live t x /\ updated s x = updated t x /\ removed s x = removed t x /\ store s x = store t x.
