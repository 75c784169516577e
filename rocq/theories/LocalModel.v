(** Model of the delivery of local files to the updater: /repo/pkg/mapserver/logfetcher/locallogfetcher.go, from StartFetching (the requested
    files, see FetchModel) to NextBatch, with its goroutines, one update after Initialize; and the part of
    /repo/pkg/mapserver/updater/updater.go UpdateNextBatch that keeps the size. Not modelled: several updates at the same time, cancelled
    contexts. Channels without buffer: sending and receiving are one step. No proofs here. *)
From Coq Require Import Strings.String.
From Verif Require Import Base UtilModel BatchModel CsvModel.
Local Open Scope list_scope.
Local Notation b_ s := (list_byte_of_string s%string).

(** ** The files *)
(** strings.Split with a separator of one byte *)
Fixpoint split_byte (b : byte) (l : bytes) : list bytes :=
  match l with
  | [] => [[]]
  | x :: l' =>
      if Byte.eqb x b then [] :: split_byte b l'
      else match split_byte b l' with p :: ps => (x :: p) :: ps | [] => [[x]] end
  end.
(** strings.CutSuffix *)
Fixpoint cut_suffix (suffix l : bytes) : option bytes :=
  if beqb l suffix then Some [] else match l with [] => None | x :: l' => option_map (cons x) (cut_suffix suffix l') end.
(** :480 getFileInfo: the range of a file name; Ok None: not a data file *)
Definition file_info (name : bytes) (gz : bool) : res (option (Z * Z)) :=
  match cut_suffix (if gz then b_ ".gz" else b_ ".csv") name with
  | Some r =>
      match split_byte x2d r with
      | [a; b] => match parse_int a, parse_int b with Some x, Some y => Ok (Some (x, y)) | _, _ => Err end
      | _ => Ok None
      end
  | None => Ok None
  end.
(** :507 listFiles: the entries of the walk in its order, [dir]: a directory. A folder that cannot be opened has a nil entry: panic.
    [names]: path and name. *)
Record entry := mk_entry { e_path : bytes; e_name : bytes; e_dir : bool }.
Record found := mk_found { fd_path : bytes; fd_gz : bool; fd_start : Z; fd_end : Z }.
Fixpoint list_files (walk : list entry) (gz csv : list found) : res (list found) :=
  match walk with
  | [] => Ok (gz ++ csv)
  | e :: walk' =>
      if e_dir e then list_files walk' gz csv
      else match file_info (e_name e) true, file_info (e_name e) false with
           | Ok a, Ok b =>
               let add (gzip : bool) (x : option (Z * Z)) (l : list found) :=
                 match x with Some (i, j) => l ++ [mk_found (e_path e) gzip i j] | None => l end in
               list_files walk' (add true a gz) (add false b csv)
           | _, _ => Err
           end
  end.
Definition folder_files (walk : option (list entry)) : res (list found) := match walk with None => Panic | Some w => list_files w [] [] end.

(** ** A row *)
Section Row.
  Variable b64 : bytes -> option bytes.       (* base64.StdEncoding.DecodeString *)
  Variable x509 : bytes -> option cert.       (* ctx509.ParseCertificate *)
  Variable not_after : cert -> Z.             (* nanoseconds *)
  Variable now : Z.                           (* nanoseconds; the expiration fits into a Go time *)
  (** :369 getExpiration *)
  Definition expiration (f : bytes) : option Z := match split_byte full_stop f with [a; _] => parse_int a | _ => None end.
  Fixpoint parse_chain (parts : list bytes) : option (list cert) :=
    match parts with
    | [] => Some []
    | s :: parts' =>
        match b64 s with
        | None => None
        | Some r => match x509 r, parse_chain parts' with Some c, Some cs => Some (c :: cs) | _, _ => None end
        end
    end.
  (** What a row becomes. [Bad]: an error, with which the goroutine panics, or an index out of range *)
  Inductive row_out := Expired | Parsed (c : cert) (chain : list cert) | Bad.
  (** :280 parseFunction *)
  Definition parse_row (fs : list bytes) : row_out :=
    match expiration (last fs []) with
    | None => Bad
    | Some n =>
        if (n * 1000000000 <? now)%Z then Expired
        else match nth_error fs CertificateColumn with
             | None => Bad
             | Some s =>
                 match b64 s with
                 | None => Bad
                 | Some r =>
                     match x509 r with
                     | None => Bad
                     | Some c =>
                         if (not_after c <? now)%Z then Expired
                         else match nth_error fs CertChainColumn with
                              | None => Bad
                              | Some ch => match parse_chain (split_byte semicolon ch) with None => Bad | Some l => Parsed c l end
                              end
                     end
                 end
             end
    end.
  (** A file as its reader finds it: it cannot be read (Open, or ReadAll before any row is handed out), or it has rows and Close is fine or not *)
  Inductive file_data := Unreadable | Readable (rows : list row_out) (close_ok : bool).
  Definition has_fields (fs : list bytes) : bool := match fs with [] => false | _ => true end.
  (** :254 processFile, 275 ingestWithCSV; [None] of the content: it cannot be opened or unpacked *)
  Definition load (content : option bytes) (close_ok : bool) : file_data :=
    match content with
    | None => Unreadable
    | Some text =>
        match csv_all (S (length text)) text with
        | Some (Ok rows) => Readable (map parse_row (filter has_fields rows)) close_ok
        | _ => Unreadable
        end
    end.
End Row.

(** ** The goroutines *)
Section Delivery.
  Variable readers parsers : nat.  (* NumFileReaders, NumParsers *)
  Variable batch : nat.            (* processBatchSize *)
  Variable preload : nat.          (* preloadCount *)

  (** result, without its error, which is never set *)
  Record result := mk_result { r_certs : list (cert * list cert); r_expired : nat }.
  Definition no_result : result := mk_result [] 0.
  Definition is_empty (r : result) : bool := match r_certs r with [] => r_expired r =? 0 | _ => false end.
  (** :421-427 *)
  Definition add_row (x : row_out) (r : result) : result :=
    match x with
    | Expired => mk_result (r_certs r) (S (r_expired r))
    | Parsed c ch => mk_result (r_certs r ++ [(c, ch)]) (r_expired r)
    | Bad => r
    end.
  (** A file reader: waiting for a file, with a file ([todo]: rows not handed out, [busy]: rows that parsers hold), sending an error, ended *)
  Inductive reader := Waiting | Reading (todo busy : list row_out) (close_ok : bool) | Failing | Ended.
  (** The collector (:415): receiving, sending a full batch, sending the last one, ended *)
  Inductive collector := Receiving (r : result) (n : nat) | Sending (r : result) | Last (r : result) | Closed.
  (** [feed]: files that the goroutine of StartFetching has not sent (then it closes the channel); [out]: chanResults; [errors]: printed errors;
      [got]: what NextBatch took; [over]: NextBatch answered false; [dead]: a panic *)
  Record state := mk_state { feed : list file_data; rds : list reader; col : collector; out : list result; errors : nat;
    got : list result; over : bool; dead : bool }.
  Definition start (files : list file_data) : state := mk_state files (repeat Waiting readers) (Receiving no_result 0) [] 0 [] false false.

  Inductive act :=
  | Take (i : nat)       (* reader i gets the next file, or sees the channel closed *)
  | Hand (i : nat)       (* reader i hands a row to a free parser *)
  | Emit (i j : nat)     (* the parser with row j of reader i sends the certificate to the collector *)
  | Finish (i : nat)     (* reader i: all parsers have ended; closes the file *)
  | Report (i : nat)     (* reader i sends an error to the goroutine that prints it *)
  | Push                 (* the collector puts a batch on chanResults *)
  | Close                (* the collector sees that all readers ended *)
  | Next.                (* NextBatch, ReturnNextBatch *)

  Definition with_reader (s : state) (i : nat) (r : reader) : state :=
    mk_state (feed s) (set_nth i r (rds s)) (col s) (out s) (errors s) (got s) (over s) (dead s).
  Definition remove_nth {A} (j : nat) (l : list A) : list A := firstn j l ++ skipn (S j) l.
  Definition ended (r : reader) : bool := match r with Ended => true | _ => false end.
  Definition step (s : state) (a : act) : option state :=
    if dead s then None
    else
      match a with
      | Take i =>
          match nth_error (rds s) i with
          | Some Waiting =>
              match feed s with
              | [] => Some (with_reader s i Ended)
              | f :: fs =>
                  let r := match f with Unreadable => Failing | Readable rows ok => Reading rows [] ok end in
                  Some (mk_state fs (set_nth i r (rds s)) (col s) (out s) (errors s) (got s) (over s) (dead s))
              end
          | _ => None
          end
      | Hand i =>
          match nth_error (rds s) i with
          | Some (Reading (x :: todo) busy ok) => if length busy <? parsers then Some (with_reader s i (Reading todo (busy ++ [x]) ok)) else None
          | _ => None
          end
      | Emit i j =>
          match nth_error (rds s) i with
          | Some (Reading todo busy ok) =>
              match nth_error busy j with
              | Some Bad => Some (mk_state (feed s) (rds s) (col s) (out s) (errors s) (got s) (over s) true)
              | Some x =>
                  match col s with
                  | Receiving r n =>
                      let r' := add_row x r in
                      Some (mk_state (feed s) (set_nth i (Reading todo (remove_nth j busy) ok) (rds s))
                        (if batch <=? S n then Sending r' else Receiving r' (S n)) (out s) (errors s) (got s) (over s) (dead s))
                  | _ => None
                  end
              | None => None
              end
          | _ => None
          end
      | Finish i =>
          match nth_error (rds s) i with
          | Some (Reading [] [] ok) => Some (with_reader s i (if ok then Waiting else Failing))
          | _ => None
          end
      | Report i =>
          match nth_error (rds s) i with
          | Some Failing => Some (mk_state (feed s) (set_nth i Waiting (rds s)) (col s) (out s) (S (errors s)) (got s) (over s) (dead s))
          | _ => None
          end
      | Push =>
          if length (out s) <? preload then
            match col s with
            | Sending r => Some (mk_state (feed s) (rds s) (Receiving no_result 0) (out s ++ [r]) (errors s) (got s) (over s) (dead s))
            | Last r => Some (mk_state (feed s) (rds s) Closed (out s ++ [r]) (errors s) (got s) (over s) (dead s))
            | _ => None
            end
          else None
      | Close =>
          match col s with
          | Receiving r n =>
              if forallb ended (rds s) then
                Some (mk_state (feed s) (rds s) (if 0 <? n then Last r else Closed) (out s) (errors s) (got s) (over s) (dead s))
              else None
          | _ => None
          end
      | Next =>
          if over s then None
          else match out s with
               | r :: out' => Some (mk_state (feed s) (rds s) (col s) out' (errors s) (if is_empty r then got s else got s ++ [r]) (is_empty r) (dead s))
               | [] => match col s with Closed => Some (mk_state (feed s) (rds s) (col s) [] (errors s) (got s) true (dead s)) | _ => None end
               end
      end.
  Fixpoint run (s : state) (acts : list act) : option state :=
    match acts with [] => Some s | a :: acts' => match step s a with Some s' => run s' acts' | None => None end end.

  (** updater.go:107 UpdateNextBatch for each batch that NextBatch took: lastState.Size, and whether the target was recorded *)
  Definition batch_size (r : result) : nat := length (r_certs r) + r_expired r.
  Fixpoint recorded (last target : Z) (batches : list result) : bool :=
    match batches with
    | [] => false
    | r :: l => let last' := (last + Z.of_nat (batch_size r))%Z in (last' =? target)%Z || recorded last' target l
    end.
End Delivery.
