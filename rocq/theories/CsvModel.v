(** Model of the reading of CSV files by the ingest command: /repo/cmd/ingest/fastcsv/fastcsv.go, csvSplitWorker.go,
    toChainWorker.go, chainToCertWorker.go, and of Reader.Read of the standard package encoding/csv with the settings used there
    (comma, no comments, no lazy quotes, no trimming, any number of fields). No proofs here. *)
From Verif Require Import Base UtilModel BatchModel.

Definition comma : byte := x2c.
Definition quote : byte := x22.
Definition nl : byte := x0a.
Definition cr : byte := x0d.
Definition full_stop : byte := x2e.
Definition semicolon : byte := x3b.

(** bytes.IndexByte: what is before and after the first [b]. *)
Fixpoint cut (b : byte) (l : bytes) : option (bytes * bytes) :=
  match l with
  | [] => None
  | x :: l' => if Byte.eqb x b then Some ([], l') else match cut b l' with Some (p, q) => Some (x :: p, q) | None => None end
  end.
Definition has (b : byte) (l : bytes) : bool := existsb (Byte.eqb b) l.

(** ** encoding/csv *)
(** lengthNL *)
Definition ends_nl (l : bytes) : bool := match rev l with x :: _ => Byte.eqb x nl | [] => false end.
Definition drop_nl (l : bytes) : bytes := if ends_nl l then removelast l else l.
(** bufio.Reader.ReadSlice and ReadBytes up to a newline: the line with the newline, and the rest; no newline: [None]. *)
Definition upto_nl (inp : bytes) : option (bytes * bytes) :=
  match cut nl inp with Some (p, q) => Some (p ++ [nl], q) | None => None end.
(** Reader.readLine: the line, whether io.EOF was returned, and what is left of the input. A carriage return before the newline or at
    the end of the input is dropped. *)
Definition read_line (inp : bytes) : bytes * bool * bytes :=
  match upto_nl inp with
  | Some (line, rest) =>
      (match rev line with
       | x :: y :: r => if Byte.eqb y cr then rev r ++ [x] else line
       | _ => line
       end, false, rest)
  | None =>
      match inp with
      | [] => ([], true, [])
      | _ => (match rev inp with x :: r => if Byte.eqb x cr then rev r else inp | [] => inp end, false, [])
      end
  end.
(** Reader.readRecord, the loop over the fields (parseField). [quoted]: inside a quoted field, whose content so far is [cur].
    [line] is the rest of the current line, [inp] the rest of the input. Outer [None]: not within [fuel] steps. *)
Fixpoint fields (fuel : nat) (quoted : bool) (line inp : bytes) (acc : list bytes) (cur : bytes) : option (res (list bytes * bytes)) :=
  match fuel with
  | O => None
  | S fuel' =>
      if quoted then
        match cut quote line with
        | Some (p, q) =>
            match q with
            | x :: q' =>
                if Byte.eqb x quote then fields fuel' true q' inp acc (cur ++ p ++ [quote])
                else if Byte.eqb x comma then fields fuel' false q' inp (acc ++ [cur ++ p]) []
                else if Byte.eqb x nl && (length q' =? 0) then Some (Ok (acc ++ [cur ++ p], inp))
                else Some Err
            | [] => Some (Ok (acc ++ [cur ++ p], inp))
            end
        | None =>
            match line with
            | [] => Some Err
            | _ => let '(line', _, inp') := read_line inp in fields fuel' true line' inp' acc (cur ++ line)
            end
        end
      else
        match line with
        | x :: line' =>
            if Byte.eqb x quote then fields fuel' true line' inp acc []
            else
              match cut comma line with
              | Some (f, rest) => if has quote f then Some Err else fields fuel' false rest inp (acc ++ [f]) []
              | None => let f := drop_nl line in if has quote f then Some Err else Some (Ok (acc ++ [f], inp))
              end
        | [] => Some (Ok (acc ++ [[]], inp))
        end
  end.
(** Reader.Read: empty lines are skipped. [Ok None]: io.EOF. *)
Fixpoint csv_read (fuel : nat) (inp : bytes) : option (res (option (list bytes * bytes))) :=
  match fuel with
  | O => None
  | S fuel' =>
      let '(line, eof, rest) := read_line inp in
      if eof then Some (Ok None)
      else if length (drop_nl line) =? 0 then csv_read fuel' rest
      else
        match fields (S (S (length line + length rest))) false line rest [] [] with
        | Some (Ok r) => Some (Ok (Some r))
        | Some _ => Some Err
        | None => None
        end
  end.
Definition csv_record (inp : bytes) : option (res (option (list bytes * bytes))) := csv_read (S (length inp)) inp.
(** Reader.ReadAll *)
Fixpoint csv_all (fuel : nat) (inp : bytes) : option (res (list (list bytes))) :=
  match fuel with
  | O => None
  | S fuel' =>
      match csv_record inp with
      | None => None
      | Some (Ok None) => Some (Ok [])
      | Some (Ok (Some (r, rest))) =>
          match csv_all fuel' rest with
          | Some (Ok rs) => Some (Ok (r :: rs))
          | x => x
          end
      | Some _ => Some Err
      end
  end.

(** ** fastcsv.go *)
Record parsed := mk_parsed { p_cert : bytes; p_chain : bytes; p_exp : bytes }.
Inductive disposition : Type := FastOK (p : parsed) | Fallback | Hard.
(** rawLine[a:b] *)
Definition slice_of (l : bytes) (a b : nat) : bytes := firstn (b - a) (skipn a l).
Definition is_digit (b : byte) : bool := ((48 <=? Byte.to_N b)%N && (Byte.to_N b <=? 57)%N).
(** :166 looksLikeExpirationField *)
Definition looks_like_expiration (f : bytes) : bool :=
  if length f <? 3 then false
  else
    match cut full_stop f with
    | Some (p, q) => negb (length p =? 0) && negb (length q =? 0) && forallb is_digit p && forallb is_digit q
    | None => false
    end.
(** :102-126 the loop; the pairs are start and end of the certificate, chain and last fields, [None] is -1. *)
Record scan := mk_scan { s_index : nat; s_start : nat; s_cert : option (nat * nat); s_chain : option (nat * nat); s_last : option (nat * nat) }.
Definition CertificateColumn : nat := 3.
Definition CertChainColumn : nat := 4.
Definition field_end (s : scan) (i : nat) : scan :=
  mk_scan (S (s_index s)) (S i) (if s_index s =? CertificateColumn then Some (s_start s, i) else s_cert s)
    (if s_index s =? CertChainColumn then Some (s_start s, i) else s_chain s) (Some (s_start s, i)).
Fixpoint scan_row (l : bytes) (i : nat) (s : scan) : scan :=
  match l with
  | [] => field_end s i
  | x :: l' => scan_row l' (S i) (if Byte.eqb x comma then field_end s i else s)
  end.
(** :94 ParseRowFast *)
Definition parse_row_fast (l : bytes) : disposition :=
  if length l =? 0 then Hard
  else if has quote l then Fallback
  else
    let s := scan_row l 0 (mk_scan 0 0 None None None) in
    match s_cert s, s_chain s, s_last s with
    | Some (a, b), Some (c, d), Some (e, f) =>
        if a =? b then Hard
        else if looks_like_expiration (slice_of l e f) then FastOK (mk_parsed (slice_of l a b) (slice_of l c d) (slice_of l e f))
        else Fallback
    | _, _, _ => Hard
    end.
(** :144 parseRowSlow *)
Definition columns (fs : list bytes) : option parsed :=
  if length fs <=? CertChainColumn then None
  else if length (last fs []) =? 0 then None
  else Some (mk_parsed (nth CertificateColumn fs []) (nth CertChainColumn fs []) (last fs [])).
Definition parse_row_slow (l : bytes) : option (res parsed) :=
  match csv_record l with
  | None => None
  | Some (Ok (Some (fs, _))) => match columns fs with Some p => Some (Ok p) | None => Some Err end
  | Some _ => Some Err
  end.
(** bytes.TrimRight(rawLine, "\r\n") *)
Fixpoint trim_left (l : bytes) : bytes := match l with x :: l' => if Byte.eqb x cr || Byte.eqb x nl then trim_left l' else l | [] => [] end.
Definition trim_right (l : bytes) : bytes := rev (trim_left (rev l)).
(** :66 ParseLine *)
Definition parse_line (raw : bytes) : option (res parsed) :=
  let l := trim_right raw in
  match parse_row_fast l with
  | FastOK p => Some (Ok p)
  | Fallback => parse_row_slow l
  | Hard => Some Err
  end.

(** ** csvSplitWorker.go:71 startReadingLines: the rows sent, and whether an error is reported at the end. The rest of the file is not
    looked at after a bad row (it is drained for read errors, which do not occur here). *)
Fixpoint read_file (fuel : nat) (inp : bytes) : option (list parsed * bool) :=
  match fuel with
  | O => None
  | S fuel' =>
      match upto_nl inp with
      | Some (line, rest) =>
          match parse_line line with
          | None => None
          | Some (Ok p) => match read_file fuel' rest with Some (ps, e) => Some (p :: ps, e) | None => None end
          | Some _ => Some ([], true)
          end
      | None =>
          match inp with
          | [] => Some ([], false)
          | _ => match parse_line inp with None => None | Some (Ok p) => Some ([p], false) | Some _ => Some ([], true) end
          end
      end
  end.

(** ** toChainWorker.go *)
(** :158 getExpiration. strconv.ParseInt of the digits before the dot: a sign is accepted, overflow of int64 is an error. *)
Fixpoint digits_value (l : bytes) (acc : Z) : option Z :=
  match l with
  | [] => Some acc
  | x :: l' => if is_digit x then digits_value l' (acc * 10 + (Z.of_N (Byte.to_N x) - 48)) else None
  end.
Definition parse_int (l : bytes) : option Z :=
  let value (neg : bool) (ds : bytes) :=
    match ds with
    | [] => None
    | _ =>
        match digits_value ds 0 with
        | None => None
        | Some v => let v := (if neg then - v else v)%Z in if ((- 2 ^ 63 <=? v) && (v <? 2 ^ 63))%Z then Some v else None
        end
    end in
  match l with
  | x :: l' => if Byte.eqb x x2b then value false l' else if Byte.eqb x x2d then value true l' else value false l
  | [] => None
  end.
Definition get_expiration (f : bytes) : option Z :=
  match cut full_stop f with
  | Some (p, q) => if (length p =? 0) || (length q =? 0) then None else parse_int p
  | None => None
  end.
(** :173 splitSemicolonField: the loop over the positions. *)
Fixpoint split_loop (f l : bytes) (i start : nat) (parts : list bytes) : list bytes :=
  match l with
  | [] => parts ++ [slice_of f start i]
  | x :: l' => if Byte.eqb x semicolon then split_loop f l' (S i) (S i) (parts ++ [slice_of f start i]) else split_loop f l' (S i) start parts
  end.
Definition split_semicolon (f : bytes) : list bytes := split_loop f f 0 0 [].

Section Worker.
  Variable H : bytes -> bytes.                (* SHA-256 *)
  Variable b64 : bytes -> option bytes.       (* base64.StdEncoding.Decode *)
  Variable x509 : bytes -> option cert.       (* ctx509.ParseCertificate; raw of the result is its argument *)
  Variable not_after : cert -> Z.             (* nanoseconds *)
  Variable now : Z.                           (* nanoseconds; the year of the expiration fits into a Go time *)
  Variable size : nat.                        (* LruCacheSize *)

  (** A parsed row: the leaf with its id, and the chain: certificate, or nil if it was in the cache, with its id. *)
  Definition chain_data : Type := cert * bytes * list (option cert * bytes).
  (** :124-147 the chain *)
  Fixpoint chain_loop (parts : list bytes) (cache : list bytes) (acc : list (option cert * bytes)) : res (list (option cert * bytes)) * list bytes :=
    match parts with
    | [] => (Ok acc, cache)
    | s :: parts' =>
        match b64 s with
        | None => (Err, cache)
        | Some r =>
            let id := H r in
            if lru_contains cache id then chain_loop parts' cache (acc ++ [(None, id)])
            else
              match x509 r with
              | None => (Err, cache)
              | Some c => chain_loop parts' (lru_add size cache id) (acc ++ [(Some c, id)])
              end
        end
    end.
  (** :66 parseLine. [Ok None]: the row is skipped. *)
  Definition to_chain (p : parsed) (cache : list bytes) : res (option chain_data) * list bytes :=
    match get_expiration (p_exp p) with
    | None => (Err, cache)
    | Some n =>
        if (n * 1000000000 <? now)%Z then (Ok None, cache)
        else
          match b64 (p_cert p) with
          | None => (Err, cache)
          | Some r =>
              let id := H r in
              if lru_contains cache id then (Ok None, cache)
              else
                match x509 r with
                | None => (Err, cache)
                | Some c =>
                    if (not_after c <? now)%Z then (Ok None, cache)
                    else
                      match chain_loop (split_semicolon (p_chain p)) cache [] with
                      | (Ok ch, cache') => (Ok (Some (c, id, ch)), cache')
                      | (_, cache') => (Err, cache')
                      end
                end
          end
    end.
  (** One worker with its cache, then chainToCertWorker.go:29 (UnfoldCert): the certificates sent to the database for a list of rows.
      The second component: all rows were accepted. *)
  Fixpoint worker (rows : list parsed) (cache : list bytes) : list out_row * bool :=
    match rows with
    | [] => ([], true)
    | p :: rows' =>
        match to_chain p cache with
        | (Ok None, cache') => worker rows' cache'
        | (Ok (Some (c, id, ch)), cache') =>
            match unfold_cert c id ch with
            | Ok out => let (outs, ok) := worker rows' cache' in (out ++ outs, ok)
            | _ => ([], false)
            end
        | _ => ([], false)
        end
    end.
End Worker.
