(** Model of the command that inserts a policy certificate: /repo/cmd/mapserver/main.go:77 insertPolicyFromFile, with
    /repo/pkg/util/io.go:138 PolicyCertificateFromFile and :147 PolicyCertificateFromBytes, /repo/pkg/util/types.go:6 ToType.
    The reading of the text is JsonModel.v, the tables and the tree are DbModel.v, BundleModel.v and SmtModel.v. Not modelled: the configuration and the
    connection (ConfModel.v, DsnModel.v), other processes on the same tables. *)
From Verif Require Import Base UtilModel DbModel BundleModel TrieModel TrieSpec ClientModel SmtModel RoundModel.
From Verif Require PolicyModel JsonText JsonModel.

Section Insert.
  Variable zs : JsonModel.zones.
  Variable H : bytes -> bytes.
  Variables limit max_depth size : nat.

  (** io.go:147: the JSON text is not kept in the certificate. None: out of fuel. *)
  Definition policy_from_bytes (text : bytes) : option (res PolicyModel.cert) :=
    match JsonModel.from_text zs true text with
    | None => None
    | Some (Ok (JsonModel.OPtr (Some (JsonModel.OCert c)))) => Some (Ok c)
    | Some Panic => Some Panic
    | Some _ => Some Err
    end.
  (** The arguments of UpdateWithKeepExisting, main.go:100: no certificates, one policy with its domain and what Raw returns *)
  Definition policy_batch (domain raw : bytes) : batch := mk_batch [] [] [] [] [] [(domain, raw)].
  (** main.go:123: what is printed; the roots before and after *)
  Inductive message := First (after : option bytes) | Same (root : bytes) | Changed (before after : bytes).
  (** main.go:125: newRoot[:] of a nil pointer panics. *)
  Definition report (before after : option bytes) : res message :=
    match before, after with
    | None, _ => Ok (First after)
    | Some _, None => Panic
    | Some r, Some r' => Ok (if beqb r r' then Same r' else Changed r r')
    end.
  (** main.go:77. [text]: the file; [es]: the execution of the workers of the coalescing, an error if it does not end well; [max]: the size of a bundle. The
      result, the tables and the tables of the tree. *)
  Definition insert_policy (text : bytes) (es : list event) (max : nat) (d : db) (k : disk) : option (res message * db * disk) :=
    match policy_from_bytes text with
    | None => None
    | Some (Ok c) =>
        Some match JsonModel.raw_of zs (JsonModel.OCert c) with
             | Ok raw =>
                 match ingest H true (policy_batch (PolicyModel.f_domain (PolicyModel.c_fields c)) raw) d with
                 | Ok d1 =>
                     let s := exec H max_depth size (start d1) es in
                     if returned s
                     then match update_smt H limit max (fst s) k with
                          | (Ok _, k') => (report (k_root k) (k_root k'), cleanup (fst s), k')
                          | (Err, k') => (Err, fst s, k')
                          | (Panic, k') => (Panic, fst s, k')
                          end
                     else (Err, fst s, k)
                 | Err => (Err, d, k)
                 | Panic => (Panic, d, k)
                 end
             | Err => (Err, d, k)
             | Panic => (Panic, d, k)
             end
    | Some Err => Some (Err, d, k)
    | Some Panic => Some (Panic, d, k)
    end.
  (** ** Vocabulary for the theorems *)
  (** The workers of the coalescing, from the tables after UpdateWithKeepExisting, and whether they all end well *)
  Definition workers (c : PolicyModel.cert) (es : list event) (d : db) : system :=
    match JsonModel.raw_of zs (JsonModel.OCert c) with
    | Ok raw => match ingest H true (policy_batch (PolicyModel.f_domain (PolicyModel.c_fields c)) raw) d with Ok d1 => exec H max_depth size (start d1) es | _ => start d end
    | _ => start d
    end.
  (** A text of a policy certificate about the domain *)
  Definition names_domain (raw dom : bytes) : Prop :=
    exists c, policy_from_bytes raw = Some (Ok c) /\ PolicyModel.f_domain (PolicyModel.c_fields c) = dom.
  (** The tables if the process dies after [n] statements of UpdateWithKeepExisting *)
  Definition killed_after (n : nat) (domain raw : bytes) (d : db) : db :=
    if in_table (d_pols d) (H raw) then d else run (firstn n (insert_policies H [(domain, raw)])) d.
End Insert.
