(** A file system for crash properties, and the sequence of file operations of Journal.writeLocked
    (/repo/cmd/ingest/journal/journal.go:335). Names and inodes are numbers.

    Directory operations reach the disk later, but in order; file data reach it at the latest when synced. After the
    process dies, everything done is still visible. After the machine dies, only a prefix of the pending directory
    operations is visible and files not synced since their last write hold anything. *)
From Verif Require Import Base.

Inductive dirop := DBind (name inode : nat) | DUnbind (name : nat).
Record fs := mk_fs {
  f_dir : nat -> option nat;      (* durable directory *)
  f_pend : list dirop;            (* directory operations not yet durable *)
  f_data : nat -> bytes;
  f_synced : nat -> bool
}.
Definition upd {A} (f : nat -> A) (n : nat) (x : A) : nat -> A := fun m => if m =? n then x else f m.
Definition dir_step (d : nat -> option nat) (o : dirop) : nat -> option nat :=
  match o with DBind n i => upd d n (Some i) | DUnbind n => upd d n None end.
Definition cur_dir (s : fs) : nat -> option nat := fold_left dir_step (f_pend s) (f_dir s).

Inductive op :=
| OCreate (name inode : nat)
| OWrite (inode : nat) (b : bytes)
| OSync (inode : nat)
| OClose (inode : nat)
| ORename (from to : nat)
| ORemove (name : nat).
Definition step (s : fs) (o : op) : fs :=
  match o with
  | OCreate n i => mk_fs (f_dir s) (f_pend s ++ [DBind n i]) (upd (f_data s) i []) (upd (f_synced s) i false)
  | OWrite i b => mk_fs (f_dir s) (f_pend s) (upd (f_data s) i (f_data s i ++ b)) (upd (f_synced s) i false)
  | OSync i => mk_fs (f_dir s) (f_pend s) (f_data s) (upd (f_synced s) i true)
  | OClose _ => s
  | ORename a b => match cur_dir s a with
                   | None => s
                   | Some i => mk_fs (f_dir s) (f_pend s ++ [DBind b i; DUnbind a]) (f_data s) (f_synced s)
                   end
  | ORemove n => mk_fs (f_dir s) (f_pend s ++ [DUnbind n]) (f_data s) (f_synced s)
  end.
Definition steps (s : fs) (l : list op) : fs := fold_left step l s.
(** What a reader sees after the process died. *)
Definition view (s : fs) (name : nat) : option bytes :=
  match cur_dir s name with None => None | Some i => Some (f_data s i) end.
(** What may be found after the machine died. *)
Definition after_crash (s : fs) (name : nat) (found : option bytes) : Prop :=
  exists k, let d := fold_left dir_step (firstn k (f_pend s)) (f_dir s) in
  match d name with
  | None => found = None
  | Some i => exists b, found = Some b /\ (f_synced s i = true -> b = f_data s i)
  end.

(** journal.go:335-371. [t], [i]: the fresh temporary name and its inode. The outcome of every call: [wrote] bytes reach the
    file even if Write fails. Rename is one directory operation (bind and unbind become durable together or not at all
    would be stronger; here they may be separated, which is weaker). *)
Record outcome := mk_outcome { o_create : bool; o_wrote : nat; o_write : bool; o_sync : bool; o_close : bool; o_rename : bool }.
Definition write_locked (o : outcome) (t i j : nat) (content : bytes) : list op * bool :=
  if o_create o then
    if o_write o then
      if o_sync o then
        if o_close o then
          if o_rename o
          then ([OCreate t i; OWrite i content; OSync i; OClose i; ORename t j], true)
          else ([OCreate t i; OWrite i content; OSync i; OClose i; ORemove t], false)
        else ([OCreate t i; OWrite i content; OSync i; ORemove t], false)
      else ([OCreate t i; OWrite i content; OClose i; ORemove t], false)
    else ([OCreate t i; OWrite i (firstn (o_wrote o) content); OClose i; ORemove t], false)
  else ([], false).
