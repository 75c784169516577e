(** Model of the certificate tables in MySQL: /repo/pkg/db/mysql/certs.go, dirty.go, policies.go, mysql.go, the stored procedures in
    /repo/tools/create_schema.sh, and the functions of /repo/pkg/mapserver/updater/updater.go that fill the tables.
    A table is the list of its rows. A statement is atomic (InnoDB, autocommit); a dying process leaves a prefix of its statements.
    The CSV files in between are in LoadModel. Not modelled: column lengths, errors of the server. *)
From Verif Require Import Base UtilModel.

(** A row of certs or policies. A missing parent is the empty string (FROM_BASE64 of an empty field). The expiration is in seconds. *)
Record cert_row := mk_cr { cr_id : bytes; cr_parent : bytes; cr_exp : Z; cr_payload : bytes }.
(** A row of domain_payloads without its key. *)
Record pay_row := mk_pr { pr_certs : option bytes; pr_certs_id : option bytes; pr_pols : option bytes; pr_pols_id : option bytes }.
Record db := mk_db {
  d_certs : list cert_row; d_pols : list cert_row; d_dirty : list (bytes * bool); d_domains : list (bytes * bytes);
  d_dc : list (bytes * bytes); d_dp : list (bytes * bytes); d_pay : list (bytes * pay_row) }.
Definition empty_db : db := mk_db [] [] [] [] [] [] [].

Definition set_certs t d := mk_db t (d_pols d) (d_dirty d) (d_domains d) (d_dc d) (d_dp d) (d_pay d).
Definition set_pols t d := mk_db (d_certs d) t (d_dirty d) (d_domains d) (d_dc d) (d_dp d) (d_pay d).
Definition set_dirty t d := mk_db (d_certs d) (d_pols d) t (d_domains d) (d_dc d) (d_dp d) (d_pay d).
Definition set_domains t d := mk_db (d_certs d) (d_pols d) (d_dirty d) t (d_dc d) (d_dp d) (d_pay d).
Definition set_dc t d := mk_db (d_certs d) (d_pols d) (d_dirty d) (d_domains d) t (d_dp d) (d_pay d).
Definition set_dp t d := mk_db (d_certs d) (d_pols d) (d_dirty d) (d_domains d) (d_dc d) t (d_pay d).
Definition set_pay t d := mk_db (d_certs d) (d_pols d) (d_dirty d) (d_domains d) (d_dc d) (d_dp d) t.

(** ** Statements *)
Section Insert.
  Context {R : Type}.
  Variable same_key : R -> R -> bool.
  (** INSERT IGNORE, LOAD DATA ... IGNORE: a row with an existing key is skipped. *)
  Fixpoint insert_ignore (t rows : list R) : list R :=
    match rows with
    | [] => t
    | r :: rows' => insert_ignore (if existsb (same_key r) t then t else t ++ [r]) rows'
    end.
  (** REPLACE INTO, LOAD DATA ... REPLACE: a row with an existing key is replaced. *)
  Fixpoint insert_replace (t rows : list R) : list R :=
    match rows with
    | [] => t
    | r :: rows' => insert_replace (filter (fun x => negb (same_key r x)) t ++ [r]) rows'
    end.
End Insert.
Definition cert_key (a b : cert_row) : bool := beqb (cr_id a) (cr_id b).
Definition fst_key {B} (a b : bytes * B) : bool := beqb (fst a) (fst b).
Definition pair_key (a b : bytes * bytes) : bool := beqb (fst a) (fst b) && beqb (snd a) (snd b).

(** certs.go:397, dirty.go:306, mysql.go:530, certs.go:400, policies.go:67 and :100 *)
Definition load_certs (rows : list cert_row) (d : db) : db := set_certs (insert_ignore cert_key (d_certs d) rows) d.
Definition load_dirty (ids : list bytes) (d : db) : db := set_dirty (insert_replace fst_key (d_dirty d) (map (fun i => (i, false)) ids)) d.
Definition load_domains (rows : list (bytes * bytes)) (d : db) : db := set_domains (insert_ignore fst_key (d_domains d) rows) d.
Definition load_dc (rows : list (bytes * bytes)) (d : db) : db := set_dc (insert_ignore pair_key (d_dc d) rows) d.
Definition load_pols (rows : list cert_row) (d : db) : db := set_pols (insert_replace cert_key (d_pols d) rows) d.
Definition load_dp (rows : list (bytes * bytes)) (d : db) : db := set_dp (insert_ignore pair_key (d_dp d) rows) d.
Definition run (stmts : list (db -> db)) (d : db) : db := fold_left (fun d f => f d) stmts d.

(** ** Existence of certificates *)
Definition in_table (t : list cert_row) (id : bytes) : bool := existsb (fun r => beqb (cr_id r) id) t.
(** certs.go:322 checkCertsExist. The query yields one digit per id in the order of the ids. *)
Definition check_block (t : list cert_row) (ids : list bytes) : list bool := map (in_table t) ids.
Definition sub_list {A} (l : list A) (from to : nat) : list A := firstn (to - from) (skipn from l).
(** present[i:to] receives the answers. *)
Definition put (l : list bool) (from : nat) (x : list bool) : list bool := firstn from l ++ x ++ skipn (from + length x) l.
(** certs.go:31: i < len(ids)-batchSize. *)
Fixpoint blocks (fuel : nat) (t : list cert_row) (b i : nat) (ids : list bytes) (pres : list bool) : list bool :=
  match fuel with
  | O => pres
  | S fuel' =>
      if i + b <? length ids
      then blocks fuel' t b (i + b) ids (put pres i (check_block t (sub_list ids i (i + b))))
      else pres
  end.
(** certs.go:22 CheckCertsExist with batchSize [b] *)
Definition check_certs_exist (t : list cert_row) (b : nat) (ids : list bytes) : list bool :=
  let pres := blocks (length ids) t b 0 ids (repeat false (length ids)) in
  let from := length ids / b * b in
  let to := from + length ids mod b in
  if from <? to then put pres from (check_block t (sub_list ids from to)) else pres.
Definition batch_size : nat := 1000.
(** policies.go:15 CheckPoliciesExist: one query, whose answer is cut at group_concat_max_len, by default 1024. *)
Definition check_pols_exist (t : list cert_row) (ids : list bytes) : list bool :=
  put (repeat false (length ids)) 0 (firstn 1024 (check_block t ids)).

(** ** updater.go *)
(** updater.go:676 runWhenFalse, the closure acting on a state *)
Fixpoint run_when_false_from {St : Type} (mask : list bool) (from to : nat) (f : nat -> nat -> St -> St) (s : St) : St * nat :=
  match mask with
  | [] => (s, to)
  | true :: mask' => run_when_false_from mask' (S from) to f s
  | false :: mask' => run_when_false_from mask' (S from) (S to) f (f to from s)
  end.
Definition run_when_false {St : Type} (mask : list bool) (f : nat -> nat -> St -> St) (s : St) : St * nat := run_when_false_from mask 0 0 f s.
Definition move {A} (d : A) (to from : nat) (l : list A) : list A := set_nth to (nth from l d) l.

Section Updater.
  Variable H : bytes -> bytes.

  (** The rows of certs.go:74; [Panic] if a slice is too short. *)
  Fixpoint cert_rows (ids parents : list bytes) (exps : list Z) (payloads : list bytes) : res (list cert_row) :=
    match ids with
    | [] => Ok []
    | i :: ids' =>
        match parents, exps, payloads with
        | p :: parents', e :: exps', y :: payloads' =>
            match cert_rows ids' parents' exps' payloads' with Ok rs => Ok (mk_cr i p e y :: rs) | r => r end
        | _, _, _ => Panic
        end
    end.
  (** updater.go:589 the pairs of name and certificate id *)
  Fixpoint name_pairs (names : list (list bytes)) (ids : list bytes) : res (list (bytes * bytes)) :=
    match names with
    | [] => Ok []
    | ns :: names' =>
        match ids with
        | i :: ids' => match name_pairs names' ids' with Ok ps => Ok (map (fun n => (n, i)) ns ++ ps) | r => r end
        | [] => match ns with [] => name_pairs names' [] | _ => Panic end
        end
    end.
  (** updater.go:561 insertCerts: its statements *)
  Definition insert_certs (names : list (list bytes)) (ids parents : list bytes) (exps : list Z) (payloads : list bytes) : res (list (db -> db)) :=
    match ids with
    | [] => Ok []
    | _ =>
        match cert_rows ids parents exps payloads with
        | Ok rows =>
            match name_pairs names ids with
            | Ok ps => Ok [load_certs rows; load_dirty (map (fun p => H (fst p)) ps); load_domains (map (fun p => (H (fst p), fst p)) ps);
                           load_dc (map (fun p => (H (fst p), snd p)) ps)]
            | _ => Panic
            end
        | _ => Panic
        end
    end.
  (** updater.go:620 insertPolicies. A policy is its domain and its payload. *)
  Definition far_future : Z := 32503680000.
  Definition insert_policies (pols : list (bytes * bytes)) : list (db -> db) :=
    match pols with
    | [] => []
    | _ => [load_dirty (map (fun p => H (fst p)) pols); load_domains (map (fun p => (H (fst p), fst p)) pols);
            load_pols (map (fun p => mk_cr (H (snd p)) [] far_future (snd p)) pols); load_dp (map (fun p => (H (fst p), H (snd p))) pols)]
    end.
  (** updater.go:334 UpdateWithOverwrite; [certs] are the raw certificates *)
  Definition overwrite (names : list (list bytes)) (ids parents certs : list bytes) (exps : list Z) (pols : list (bytes * bytes)) : res (list (db -> db)) :=
    match insert_certs names ids parents exps certs with Ok s => Ok (s ++ insert_policies pols) | r => r end.
  (** updater.go:369 UpdateWithKeepExisting on the database [d]. The expirations are passed as they came. The statements for the
      certificates do not touch the table policies, so both checks can be made on [d]. *)
  Definition keep_existing (d : db) (names : list (list bytes)) (ids parents certs : list bytes) (exps : list Z) (pols : list (bytes * bytes))
      : res (list (db -> db)) :=
    let mask := check_certs_exist (d_certs d) batch_size ids in
    let '((ids1, names1, parents1, payloads), _) :=
      run_when_false mask (fun to from '(i, n, p, y) => (move [] to from i, move [] to from n, move [] to from p, y ++ [nth from certs []]))
        (ids, names, parents, []) in
    let n := length payloads in
    match insert_certs (firstn n names1) (firstn n ids1) (firstn n parents1) exps payloads with
    | Ok s =>
        let maskp := check_pols_exist (d_pols d) (map (fun p => H (snd p)) pols) in
        let (pols1, np) := run_when_false maskp (fun to from p => move ([], []) to from p) pols in
        Ok (s ++ insert_policies (firstn np pols1))
    | r => r
    end.

  (** ** Stored procedures *)
  Variable max_depth : nat. (* cte_max_recursion_depth *)

  (** prune_expired. The recursive query adds one generation per iteration and fails beyond max_depth iterations. *)
  Definition children (t : list cert_row) (ids : list bytes) : list bytes :=
    map cr_id (filter (fun c => existsb (beqb (cr_parent c)) ids) t).
  Fixpoint descendants (fuel : nat) (t : list cert_row) (level : list bytes) : option (list bytes) :=
    match level with
    | [] => Some []
    | _ =>
        match fuel with
        | O => None
        | S fuel' => match descendants fuel' t (children t level) with None => None | Some r => Some (level ++ r) end
        end
    end.
  Definition has (ids : list bytes) (x : bytes) : bool := existsb (beqb x) ids.
  Definition delete_certs (gone : list bytes) (d : db) : db := set_certs (filter (fun c => negb (has gone (cr_id c))) (d_certs d)) d.
  (** Its statements, after the temporary table has been filled. *)
  Definition prune_stmts (cut : Z) (d : db) : res (list (db -> db)) :=
    match descendants max_depth (d_certs d) (map cr_id (filter (fun c => Z.ltb (cr_exp c) cut) (d_certs d))) with
    | None => Err
    | Some gone => Ok [load_dirty (map fst (filter (fun r => has gone (snd r)) (d_dc d))); delete_certs gone]
    end.
  Definition prune_expired (cut : Z) (d : db) : res db := match prune_stmts cut d with Ok s => Ok (run s d) | Err => Err | Panic => Panic end.
  (** certs.go:368 pruneCerts: the wall clock time of [now] in its location, [offset] seconds ahead of UTC, in whole seconds. *)
  Definition prune_certs (now_ns offset : Z) (d : db) : res db := prune_expired (now_ns / 1000000000 + offset)%Z d.

  (** calc_dirty_domains. The recursive query with UNION: only rows not seen before enter the next iteration. *)
  Definition parents_of (t level : list cert_row) (seen : list bytes) : list cert_row :=
    filter (fun c => existsb (fun r => beqb (cr_parent r) (cr_id c)) level && negb (has seen (cr_id c))) t.
  Fixpoint ancestors (fuel : nat) (t level : list cert_row) (seen : list bytes) : option (list bytes) :=
    match level with
    | [] => Some seen
    | _ =>
        match fuel with
        | O => None
        | S fuel' => let next := parents_of t level seen in ancestors fuel' t next (seen ++ map cr_id next)
        end
    end.
  Definition closure (t : list cert_row) (assoc : list (bytes * bytes)) (domain : bytes) : option (list bytes) :=
    let base := filter (fun c => existsb (fun r => beqb (fst r) domain && beqb (snd r) (cr_id c)) assoc) t in
    ancestors (S max_depth) t base (map cr_id base).
  (** GROUP_CONCAT(id ORDER BY id SEPARATOR ''): NULL without rows. *)
  Definition glued (ids : list bytes) : option bytes := match ids with [] => None | _ => Some (concat (sort_ids ids)) end.
  Definition pay_of (d : db) (domain : bytes) : option pay_row :=
    match closure (d_certs d) (d_dc d) domain, closure (d_pols d) (d_dp d) domain with
    | Some cs, Some ps => Some (mk_pr (glued cs) (option_map H (glued cs)) (glued ps) (option_map H (glued ps)))
    | _, _ => None
    end.
  Definition all_null (p : pay_row) : bool := match pr_certs p, pr_pols p with None, None => true | _, _ => false end.

  (** ORD(LEFT(id,1)) >> 3 *)
  Definition shard (id : bytes) : nat := match id with [] => 0 | b :: _ => N.to_nat (N.shiftr (Byte.to_N b) 3) end.
  Definition partitions : nat := 32.
  Definition pending (part : nat) (d : db) : list bytes :=
    sort_ids (map fst (filter (fun r => (shard (fst r) =? part) && negb (snd r)) (d_dirty d))).
  Fixpoint pay_rows (d : db) (chunk : list bytes) : option (list (bytes * pay_row)) :=
    match chunk with
    | [] => Some []
    | x :: chunk' => match pay_of d x, pay_rows d chunk' with Some p, Some r => Some ((x, p) :: r) | _, _ => None end
    end.
  Definition replace_payloads (rows : list (bytes * pay_row)) (d : db) : db := set_pay (insert_replace fst_key (d_pay d) rows) d.
  Definition delete_payloads (chunk : list bytes) (d : db) : db :=
    set_pay (filter (fun r => negb (has chunk (fst r) && all_null (snd r))) (d_pay d)) d.
  Definition delete_domains (chunk : list bytes) (d : db) : db :=
    set_domains (filter (fun r => negb (has chunk (fst r) && negb (existsb (fun p => beqb (fst p) (fst r)) (d_pay d)))) (d_domains d)) d.
  Definition mark_coalesced (chunk : list bytes) (d : db) : db :=
    set_dirty (map (fun r => if has chunk (fst r) then (fst r, true) else r) (d_dirty d)) d.
  (** One call of calc_dirty_domains(part, chunk size): its statements and the number of processed rows. *)
  Definition calc_dirty (part size : nat) (d : db) : res (list (db -> db) * nat) :=
    let chunk := firstn size (pending part d) in
    match chunk with
    | [] => Ok ([], 0)
    | _ => match pay_rows d chunk with
           | None => Err
           | Some rows => Ok ([replace_payloads rows; delete_payloads chunk; delete_domains chunk; mark_coalesced chunk], length chunk)
           end
    end.
  Definition coalesce_chunk : nat := 1024.
  (** dirty.go:205 RecomputeDirtyDomainsCertAndPolicyIDs: one worker per partition calls the procedure until it processes no row or fails.
      The count query in front only decides whether there is anything to do. *)
  Inductive worker := Idle | Running (stmts : list (db -> db)) | Stopped (ok : bool).
  Definition work (size part : nat) (d : db) (w : worker) : db * worker :=
    match w with
    | Idle => match calc_dirty part size d with
              | Ok (stmts, n) => (d, if n =? 0 then Stopped true else Running stmts)
              | _ => (d, Stopped false)
              end
    | Running [] => (d, Idle)
    | Running (f :: fs) => (f d, Running fs)
    | Stopped b => (d, Stopped b)
    end.
  (** The workers interleave in any way; the process may die and start again. *)
  Inductive event := Work (part : nat) | Restart.
  Definition system : Type := db * (nat -> worker).
  Definition start (d : db) : system := (d, fun _ => Idle).
  Definition exec1 (size : nat) (s : system) (e : event) : system :=
    match e with
    | Work p => if p <? partitions
                then let (d, w) := work size p (fst s) (snd s p) in (d, fun q => if q =? p then w else snd s q)
                else s
    | Restart => start (fst s)
    end.
  Definition exec (size : nat) (s : system) (es : list event) : system := fold_left (exec1 size) es s.
  (** The call returns without error: all workers have ended well. *)
  Definition returned (s : system) : bool := forallb (fun p => match snd s p with Stopped true => true | _ => false end) (seq 0 partitions).
End Updater.
