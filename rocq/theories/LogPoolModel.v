(** Model of the policy log client: /repo/pkg/policylog/client/concurrentfunc.go (AddLeaves, FetchInclusions, their workers) and
    logclient.go:150 QueueRPCs with readRPCFromFileToBytes (line 210).
    The leader and the workers of AddLeaves (line 96) and of FetchInclusions (line 247) do the same with items and results; they are one system here,
    with items of type D and results of type R. A call to the log returns any result at any time: the result is part of the action. Channels
    are unbuffered; closing and the code up to the next channel operation belong to the step before. Sleeping, contexts and gRPC are left
    out. No proofs here. *)
From Verif Require Import Base SysModel JoinModel.

Section Pool.
  Context {D R : Type}.
  Inductive worker : Type :=
  | KIdle                                              (* reading workChan *)
  | KBusy (d : D)                                      (* in the call, or retrying *)
  | KHas (d : D) (r : R)                               (* sending on resultChan *)
  | KEnd.
  Inductive lead : Type := LLoop (* send_receive_loop *) | LDrain (* the second loop *) | LRet.
  Record pool : Type := mk_pool {
    workers : nat -> worker;
    todo : list D;                                     (* data[jobCounter:] *)
    taken : nat;                                       (* resultCounter *)
    collected : list (D * R);                          (* the results the leader took, in this order *)
    calls : list (D * R);                              (* ghost: the answers of the log *)
    leader : lead;
    wclosed : bool;
    rclosed : bool;
    died : bool }.
  Inductive pool_act : Type := KSelect | KSend (w : nat) | KAnswer (w : nat) (r : R) | KResult (w : nat) | KQuit (w : nat).

  Variable W size : nat.                               (* len(c.worker), dataSize *)

  Definition with_worker (c : pool) (w : nat) (x : worker) : pool :=
    mk_pool (upd (workers c) w x) (todo c) (taken c) (collected c) (calls c) (leader c) (wclosed c) (rclosed c) (died c).

  Definition pool_step (c : pool) (a : pool_act) : option pool :=
    if died c then None else
    match a with
    | KSelect =>                                       (* data[jobCounter] is evaluated on entering the select: there is none *)
        match leader c, todo c with
        | LLoop, [] => Some (mk_pool (workers c) (todo c) (taken c) (collected c) (calls c) (leader c) (wclosed c) (rclosed c) true)
        | _, _ => None
        end
    | KSend w =>
        match leader c, todo c, workers c w with
        | LLoop, d :: rest, KIdle =>
            if w <? W then
              let last := match rest with [] => true | _ => false end in
              Some (mk_pool (upd (workers c) w (KBusy d)) rest (taken c) (collected c) (calls c)
                      (if last then if taken c =? size then LRet else LDrain else LLoop) last (rclosed c) false)
            else None
        | _, _, _ => None
        end
    | KAnswer w r =>
        match workers c w with
        | KBusy d =>
            if w <? W then Some (mk_pool (upd (workers c) w (KHas d r)) (todo c) (taken c) (collected c) (calls c ++ [(d, r)]) (leader c) (wclosed c) (rclosed c) false) else None
        | _ => None
        end
    | KResult w =>
        match leader c, workers c w with
        | LRet, KHas d r => if (w <? W) && rclosed c then Some (mk_pool (workers c) (todo c) (taken c) (collected c) (calls c) (leader c) (wclosed c) (rclosed c) true) else None
        | LLoop, KHas d r =>
            if w <? W then Some (mk_pool (upd (workers c) w KIdle) (todo c) (S (taken c)) (collected c ++ [(d, r)]) (calls c) LLoop (wclosed c) (rclosed c) false) else None
        | LDrain, KHas d r =>
            if w <? W then
              let fin := S (taken c) =? size in
              Some (mk_pool (upd (workers c) w KIdle) (todo c) (S (taken c)) (collected c ++ [(d, r)]) (calls c) (if fin then LRet else LDrain) (wclosed c) fin false)
            else None
        | _, _ => None
        end
    | KQuit w =>
        match workers c w with
        | KIdle => if (w <? W) && wclosed c then Some (with_worker c w KEnd) else None
        | _ => None
        end
    end.
  Definition pool_start (data : list D) : pool := mk_pool (fun _ => KIdle) data 0 [] [] LLoop false false false.
End Pool.
Arguments worker : clear implicits.
Arguments pool : clear implicits.

(** ** What the leaders make of the results *)
(** concurrentfunc.go:100, 134: the result of a call is nil or an error; FailedLeaves starts with one empty leaf *)
Record add_result : Type := mk_add { add_failed : list bytes; add_errs : list bytes }.
Definition add_one (a : add_result) (x : bytes * option bytes) : add_result :=
  match snd x with None => a | Some e => mk_add (add_failed a ++ [fst x]) (add_errs a ++ [e]) end.
Definition add_leaves_result (c : list (bytes * option bytes)) : add_result := fold_left add_one c (mk_add [[]] []).

(** concurrentfunc.go:273: a map from names to proofs; here the list of its entries, a later one replaces an earlier one *)
Section Fetch.
  Context {P : Type}.
  Variable leaf_name : bytes -> bytes.                 (* base64.URLEncoding of the leaf hash, line 187 *)
  Inductive fetched : Type := FProof (p : P) | FErr (e : bytes).
  Record fetch_result : Type := mk_fetch { pois : list (bytes * P); f_failed : list bytes; f_names : list bytes; f_errs : list bytes }.
  Fixpoint put (n : bytes) (p : P) (m : list (bytes * P)) : list (bytes * P) :=
    match m with
    | [] => [(n, p)]
    | (n', p') :: m' => if beqb n n' then (n, p) :: m' else (n', p') :: put n p m'
    end.
  Definition fetch_one (a : fetch_result) (x : bytes * fetched) : fetch_result :=
    match snd x with
    | FProof p => mk_fetch (put (leaf_name (fst x)) p (pois a)) (f_failed a) (f_names a) (f_errs a)
    | FErr e => mk_fetch (pois a) (f_failed a ++ [fst x]) (f_names a ++ [leaf_name (fst x)]) (f_errs a ++ [e])
    end.
  Definition fetch_inclusions_result (c : list (bytes * fetched)) : fetch_result := fold_left fetch_one c (mk_fetch [] [] [] []).

  (** concurrentfunc.go:195 workerQueryLoop: what the log answers, call after call *)
  Inductive reply : Type :=
  | RNotFound (e : bytes)                              (* codes.NotFound *)
  | RFail (e : bytes)                                  (* another error, also in the log root *)
  | REmpty                                             (* no proof *)
  | RProof (p : P).                                    (* proofs and a log root that can be read *)
  (** [n]: the number of the call; the result and the number of calls, None if the fuel is used up *)
  Fixpoint query_loop (fuel : nat) (replies : nat -> reply) (tries n : nat) : option (fetched * nat) :=
    match fuel with
    | O => None
    | S fuel' =>
        match replies n with
        | RNotFound e => if 10 <? tries then Some (FErr e, S n) else query_loop fuel' replies (S tries) (S n)
        | RFail e => Some (FErr e, S n)
        | REmpty => query_loop fuel' replies tries (S n)
        | RProof p => Some (FProof p, S n)
        end
    end.
End Fetch.
Arguments fetched : clear implicits.
Arguments reply : clear implicits.
Arguments fetch_result : clear implicits.

(** ** QueueRPCs *)
(** logclient.go:210 readRPCFromFileToBytes: the files in order of their names, with what JsonFileToPolicyCert and ToJSON make of them (None: an
    error). Every file is removed when it has been read. The data, or an error, and the files that are left; os.Remove does not fail. *)
Definition rpc_file : Type := bytes * option bytes.
Fixpoint read_rpcs (files : list rpc_file) : option (list bytes) * list rpc_file :=
  match files with
  | [] => (Some [], [])
  | (n, None) :: rest => (None, (n, None) :: rest)
  | (n, Some d) :: rest =>
      match read_rpcs rest with
      | (Some l, keep) => (Some (d :: l), keep)
      | (None, keep) => (None, keep)
      end
  end.
(** logclient.go:179: the loop that waits for the tree to grow; [sizes]: the answers of the log, None an error. The result: the new currentTreeSize
    or an error, None if the fuel is used up. *)
Fixpoint wait_size (fuel : nat) (sizes : nat -> option Z) (want : Z) (n : nat) : option (option Z) :=
  match fuel with
  | O => None
  | S fuel' =>
      match sizes n with
      | None => Some None
      | Some s => if (s =? want)%Z then Some (Some s) else wait_size fuel' sizes want (S n)
      end
  end.
(** logclient.go:46 QueueRPCResult. AddLeavesErrs is never set. *)
Record queue_result (P : Type) : Type := mk_queue {
  q_added : Z; q_fail_add : list bytes; q_add_errs : list bytes; q_retrieved : nat; q_fail_get : list bytes; q_fail_names : list bytes; q_get_errs : list bytes }.
Arguments mk_queue {P}. Arguments q_added {P}. Arguments q_fail_add {P}. Arguments q_add_errs {P}. Arguments q_retrieved {P}.
Arguments q_fail_get {P}. Arguments q_fail_names {P}. Arguments q_get_errs {P}.
(** What QueueRPCs ends with. [added], [got]: what the leader of AddLeaves, of FetchInclusions collects from its workers for this data. *)
Inductive queue_end (P : Type) : Type :=
| QRead                                                (* the error of line 156 *)
| QPanic                                               (* index out of range in AddLeaves *)
| QSize (r : queue_result P)                           (* the error of line 182, with the result so far *)
| QDone (r : queue_result P) (size : Z).
Arguments QRead {P}. Arguments QPanic {P}. Arguments QSize {P}. Arguments QDone {P}.
Definition queue_rpcs {P} (leaf_name : bytes -> bytes) (files : list rpc_file) (size0 : Z) (added : list (bytes * option bytes)) (sizes : nat -> option Z)
    (got : list (bytes * fetched P)) (fuel : nat) : option (queue_end P * list rpc_file) :=
  match read_rpcs files with
  | (None, keep) => Some (QRead, keep)
  | (Some [], keep) => Some (QPanic, keep)
  | (Some data, keep) =>
      let a := add_leaves_result added in
      let ok := (Z.of_nat (length data) - Z.of_nat (length (add_errs a)))%Z in
      match wait_size fuel sizes (size0 + ok) 0 with
      | None => None
      | Some None => Some (QSize (mk_queue ok (add_failed a) [] 0 [] [] []), keep)
      | Some (Some s) =>
          let g := fetch_inclusions_result leaf_name got in
          Some (QDone (mk_queue ok (add_failed a) [] (length (pois g)) (f_failed g) (f_names g) (f_errs g)) s, keep)
      end
  end.
