(** Model of the mesh between the domain extractors and the domain batchers, /repo/pkg/mapserver/updater/manager.go:275-282: N extractors, N batchers, a channel from
    each extractor to each batcher, and the error channel of a batcher in the list NextErrChs of all extractors (stage.go:118 LinkStagesAt).
    An extractor is processThisStage (/repo/pkg/pipeline/stage.go:391) with sendOutputsConcurrent (:561): each call of its function gives some domains with the
    indices of their channels, all are sent at the same time, and each of these goroutines also listens for errors. Its goroutines of
    aggregateNextErrChannels (:689) read the error channels of the batchers. A batcher has a goroutine for every input (readIncomingConcurrently, :753), which
    takes a domain and then hands it over. The batcher with the stages after it is one stage that fails or not depending on what it received. Channels are
    unbuffered. The error channel of an extractor is always read (processor.go:373), so sending on it is left out. For one worker there is no mesh: the code
    then uses the channels without the goroutines (:691, :740), which is PipeModel. No proofs here. *)
From Verif Require Import Base SysModel PipeModel JoinModel.

Definition upd2 {A} (f : nat -> nat -> A) (i j : nat) (x : A) : nat -> nat -> A := fun a b => if (a =? i) && (b =? j) then x else f a b.

Inductive ext_pc : Type :=
| XRead                                                (* in the select, :422 *)
| XSend                                                (* waiting for the goroutines of sendOutputsConcurrent, :608 *)
| XBrk                                                 (* its outputs are closed; reading one more error, :362 *)
| XDone.                                               (* its error channel is closed *)
Inductive bat_pc : Type := BWork | BErr (e : bytes) (* sending on ErrCh *) | BDone (* ErrCh closed *).
(** one goroutine of aggregateNextErrChannels *)
Inductive tell : Type := TIdle | THold (e : bytes) | TDone.

Section Mesh.
  Context {D : Type}.
  (** one goroutine of readIncomingConcurrently *)
  Inductive carry : Type := FIdle | FHold (d : D) | FEnd.
  Record ext : Type := mk_ext {
    xpc : ext_pc;
    xfound : err;                                      (* foundError *)
    xtold : bool;                                      (* sendingError *)
    xleft : list (list (D * nat));                     (* what the next calls of the function give *)
    xpend : list (D * nat);                            (* being sent *)
    xsent : list (D * nat) }.
  Record bat : Type := mk_bat { bpc : bat_pc; brcvd : list D; bend : bool }.
  Record mesh : Type := mk_mesh {
    exts : nat -> ext;
    carries : nat -> nat -> carry;                     (* of batcher j, for its input i *)
    bats : nat -> bat;
    tells : nat -> nat -> tell }.                      (* of extractor i, for batcher j *)

  Inductive mesh_act : Type :=
  | ARead (i : nat) | AEnd (i : nat) | ASend (i k : nat)
  | AHear (i j : nat) | AHearSend (i j k : nat) | AClosed (i : nat) | AClosedSend (i k : nat)
  | ACarry (j i : nat) | ACarryEnd (j i : nat) | ABatEnd (j : nat) | ATake (i j : nat) | ATellEnd (i j : nat).

  Variable N : nat.
  Variable fails : nat -> list D -> option bytes.
  Variable fails_end : nat -> list D -> option bytes.

  Definition with_ext (c : mesh) i x := mk_mesh (upd (exts c) i x) (carries c) (bats c) (tells c).
  Definition with_carry (c : mesh) j i x := mk_mesh (exts c) (upd2 (carries c) j i x) (bats c) (tells c).
  Definition with_bat (c : mesh) j x := mk_mesh (exts c) (carries c) (upd (bats c) j x) (tells c).
  Definition with_tell (c : mesh) i j x := mk_mesh (exts c) (carries c) (bats c) (upd2 (tells c) i j x).

  Definition remove_at {A} (k : nat) (l : list A) : list A := firstn k l ++ skipn (S k) l.
  (** :482-510 after sending: the next call, or the end *)
  Definition sent_all (told : bool) (pend : list (D * nat)) : ext_pc := match pend with [] => if told then XBrk else XRead | _ => XSend end.
  (** reading an error, or nil, in the select of :428 or in :362 *)
  Definition listen (x : ext) (e : err) : option ext :=
    match xpc x with
    | XRead => Some (mk_ext XBrk e (xtold x) (xleft x) (xpend x) (xsent x))
    | XBrk => Some (mk_ext XDone (coalesce (xfound x) e) (xtold x) (xleft x) (xpend x) (xsent x))
    | _ => None
    end.
  (** reading it in the goroutine that sends the k-th domain, :592 *)
  Definition listen_send (x : ext) (k : nat) (e : err) : option ext :=
    match xpc x, nth_error (xpend x) k with
    | XSend, Some _ => let p := remove_at k (xpend x) in Some (mk_ext (sent_all true p) e true (xleft x) p (xsent x))
    | _, _ => None
    end.
  Definition all_told (c : mesh) (i : nat) : bool := all_below N (fun j => match tells c i j with TDone => true | _ => false end).
  Definition got (j : nat) (b : bat) (d : D) : bat :=
    let h := brcvd b ++ [d] in mk_bat (match fails j h with None => BWork | Some e => BErr e end) h false.
  Definition got_end (j : nat) (b : bat) : bat := mk_bat (match fails_end j (brcvd b) with None => BDone | Some e => BErr e end) (brcvd b) true.

  Definition mesh_step (c : mesh) (a : mesh_act) : option mesh :=
    match a with
    (* the extractors *)
    | ARead i =>
        let x := exts c i in
        match xpc x, xleft x with
        | XRead, r :: rest => if i <? N then Some (with_ext c i (mk_ext (sent_all (xtold x) r) (xfound x) (xtold x) rest r (xsent x))) else None
        | _, _ => None
        end
    | AEnd i =>
        let x := exts c i in
        match xpc x, xleft x with
        | XRead, [] => if i <? N then Some (with_ext c i (mk_ext XBrk (xfound x) (xtold x) [] (xpend x) (xsent x))) else None
        | _, _ => None
        end
    | ASend i k =>
        let x := exts c i in
        match xpc x, nth_error (xpend x) k with
        | XSend, Some (d, j) =>
            match carries c j i with
            | FIdle =>
                if (i <? N) && (j <? N) then
                  let p := remove_at k (xpend x) in
                  Some (with_carry (with_ext c i (mk_ext (sent_all (xtold x) p) (xfound x) (xtold x) (xleft x) p (xsent x ++ [(d, j)]))) j i (FHold d))
                else None
            | _ => None
            end
        | _, _ => None
        end
    | AHear i j =>
        match tells c i j, listen (exts c i) (match tells c i j with THold e => [e] | _ => [] end) with
        | THold e, Some x => if (i <? N) && (j <? N) then Some (with_tell (with_ext c i x) i j TIdle) else None
        | _, _ => None
        end
    | AHearSend i j k =>
        match tells c i j, listen_send (exts c i) k (match tells c i j with THold e => [e] | _ => [] end) with
        | THold e, Some x => if (i <? N) && (j <? N) then Some (with_tell (with_ext c i x) i j TIdle) else None
        | _, _ => None
        end
    | AClosed i => if all_told c i && (i <? N) then match listen (exts c i) [] with Some x => Some (with_ext c i x) | None => None end else None
    | AClosedSend i k => if all_told c i && (i <? N) then match listen_send (exts c i) k [] with Some x => Some (with_ext c i x) | None => None end else None
    (* the batchers *)
    | ACarry j i =>
        match carries c j i, bpc (bats c j) with
        | FHold d, BWork => if (i <? N) && (j <? N) then Some (with_carry (with_bat c j (got j (bats c j) d)) j i FIdle) else None
        | _, _ => None
        end
    | ACarryEnd j i =>
        match carries c j i, xpc (exts c i) with
        | FIdle, (XBrk | XDone) => if (i <? N) && (j <? N) then Some (with_carry c j i FEnd) else None
        | _, _ => None
        end
    | ABatEnd j =>
        match bpc (bats c j) with
        | BWork => if all_below N (fun i => match carries c j i with FEnd => true | _ => false end) && (j <? N) then Some (with_bat c j (got_end j (bats c j))) else None
        | _ => None
        end
    (* the errors *)
    | ATake i j =>
        match bpc (bats c j), tells c i j with
        | BErr e, TIdle => if (i <? N) && (j <? N) then Some (with_tell (with_bat c j (mk_bat BDone (brcvd (bats c j)) (bend (bats c j)))) i j (THold e)) else None
        | _, _ => None
        end
    | ATellEnd i j =>
        match bpc (bats c j), tells c i j with
        | BDone, TIdle => if (i <? N) && (j <? N) then Some (with_tell c i j TDone) else None
        | _, _ => None
        end
    end.

  (** [work i]: what the calls of extractor [i] give if nobody stops it *)
  Definition mesh_start (work : nat -> list (list (D * nat))) : mesh :=
    mk_mesh (fun i => mk_ext XRead [] false (work i) [] []) (fun _ _ => FIdle) (fun _ => mk_bat BWork [] false) (fun _ _ => TIdle).
End Mesh.
