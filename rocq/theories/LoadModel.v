(** Model of the CSV files through which the tables are filled: the writers in /repo/pkg/mapserver/updater/csv.go and
    /repo/pkg/db/mysql/mysql.go:556 (over the Writer of encoding/csv), and the LOAD DATA statements in /repo/pkg/db/mysql/certs.go, dirty.go
    and mysql.go, as the server executes them (READ_INFO in sql_load.cc: read_field, next_line; FROM_BASE64).
    A file is written completely or the statement is not executed; the file is the text written. Not modelled: the names of the files,
    permissions, multi-byte characters, max_allowed_packet, column lengths. *)
From Verif Require Import Base UtilModel DbModel.

(** ** Base64, encoding/base64 StdEncoding *)
Definition b64_alphabet : bytes :=
  [x41; x42; x43; x44; x45; x46; x47; x48; x49; x4a; x4b; x4c; x4d; x4e; x4f; x50; x51; x52; x53; x54; x55; x56; x57; x58; x59; x5a;
   x61; x62; x63; x64; x65; x66; x67; x68; x69; x6a; x6b; x6c; x6d; x6e; x6f; x70; x71; x72; x73; x74; x75; x76; x77; x78; x79; x7a;
   x30; x31; x32; x33; x34; x35; x36; x37; x38; x39; x2b; x2f].
Definition b64_pad : byte := x3d.
Definition b64_char (n : N) : byte := nth (N.to_nat n) b64_alphabet x00.
Local Open Scope N_scope.
Fixpoint b64_encode (l : bytes) : bytes :=
  match l with
  | [] => []
  | [a] => let v := Byte.to_N a in [b64_char (v / 4); b64_char (v mod 4 * 16); b64_pad; b64_pad]
  | [a; b] =>
      let v := Byte.to_N a * 256 + Byte.to_N b in
      [b64_char (v / 1024); b64_char (v / 16 mod 64); b64_char (v mod 16 * 4); b64_pad]
  | a :: b :: c :: l' =>
      let v := Byte.to_N a * 65536 + Byte.to_N b * 256 + Byte.to_N c in
      b64_char (v / 262144) :: b64_char (v / 4096 mod 64) :: b64_char (v / 64 mod 64) :: b64_char (v mod 64) :: b64_encode l'
  end.

(** The server's FROM_BASE64 of a string without whitespace: groups of four, only the last may end in one or two '='; None is NULL. *)
Fixpoint find_char (c : byte) (l : bytes) (i : N) : option N :=
  match l with [] => None | x :: l' => if Byte.eqb x c then Some i else find_char c l' (i + 1) end.
Definition b64_value (c : byte) : option N := find_char c b64_alphabet 0.
Definition byte_of_N (n : N) : byte := match Byte.of_N (n mod 256) with Some b => b | None => x00 end.
Fixpoint b64_decode (s : bytes) : option bytes :=
  match s with
  | [] => Some []
  | a :: b :: c :: d :: s' =>
      match b64_value a, b64_value b with
      | Some va, Some vb =>
          if Byte.eqb c b64_pad then
            if Byte.eqb d b64_pad then match s' with [] => Some [byte_of_N (va * 4 + vb / 16)] | _ => None end else None
          else match b64_value c with
               | None => None
               | Some vc =>
                   if Byte.eqb d b64_pad then
                     match s' with [] => Some [byte_of_N (va * 4 + vb / 16); byte_of_N (vb * 16 + vc / 4)] | _ => None end
                   else match b64_value d, b64_decode s' with
                        | Some vd, Some r => Some (byte_of_N (va * 4 + vb / 16) :: byte_of_N (vb * 16 + vc / 4) :: byte_of_N (vc * 64 + vd) :: r)
                        | _, _ => None
                        end
               end
      | _, _ => None
      end
  | _ => None
  end.
Definition is_space (c : byte) : bool :=
  Byte.eqb c x20 || Byte.eqb c x09 || Byte.eqb c x0a || Byte.eqb c x0b || Byte.eqb c x0c || Byte.eqb c x0d.
Definition from_base64 (s : bytes) : option bytes := b64_decode (filter (fun c => negb (is_space c)) s).
Local Close Scope N_scope.

(** ** Dates. The proleptic Gregorian calendar; [days] since 1970-01-01. *)
Local Open Scope Z_scope.
Definition civil_of_days (days : Z) : Z * Z * Z :=
  let z := days + 719468 in
  let era := z / 146097 in
  let doe := z mod 146097 in
  let yoe := (doe - doe / 1460 + doe / 36524 - doe / 146096) / 365 in
  let doy := doe - (365 * yoe + yoe / 4 - yoe / 100) in
  let mp := (5 * doy + 2) / 153 in
  let m := if mp <? 10 then mp + 3 else mp - 9 in
  (yoe + era * 400 + (if m <=? 2 then 1 else 0), m, doy - (153 * mp + 2) / 5 + 1).
Definition days_of_civil (y m d : Z) : Z :=
  let y' := if m <=? 2 then y - 1 else y in
  let era := y' / 400 in
  let yoe := y' mod 400 in
  let doy := (153 * (if 2 <? m then m - 3 else m + 9) + 2) / 5 + d - 1 in
  era * 146097 + (yoe * 365 + yoe / 4 - yoe / 100 + doy) - 719468.
(** [width] decimal digits *)
Fixpoint pad_digits (width : nat) (n : Z) : bytes :=
  match width with O => [] | S w => pad_digits w (n / 10) ++ [digit_byte (Z.to_N (n mod 10))] end.
(** t.Format(time.DateTime), "2006-01-02 15:04:05"; [t] is the wall clock time in seconds, for years of four digits. *)
Definition format_time (t : Z) : bytes :=
  let '(y, m, d) := civil_of_days (t / 86400) in
  let s := t mod 86400 in
  pad_digits 4 y ++ x2d :: pad_digits 2 m ++ x2d :: pad_digits 2 d ++ x20 ::
  pad_digits 2 (s / 3600) ++ x3a :: pad_digits 2 (s / 60 mod 60) ++ x3a :: pad_digits 2 (s mod 60).
(** The server's reading of such a text as DATETIME; other texts (which it converts with warnings) are not modelled: None. The value is in
    seconds as in [cr_exp]. *)
Definition take_number (width : nat) (s : bytes) : option (Z * bytes) :=
  if (length s <? width)%nat then None
  else if forallb is_digit (firstn width s) then Some (Z.of_N (dec_value (firstn width s)), skipn width s) else None.
Definition take_char (c : byte) (s : bytes) : option bytes :=
  match s with x :: s' => if Byte.eqb x c then Some s' else None | [] => None end.
Definition leap (y : Z) : bool := (y mod 4 =? 0) && (negb (y mod 100 =? 0) || (y mod 400 =? 0)).
Definition month_days (y m : Z) : Z :=
  if m =? 2 then if leap y then 29 else 28 else if (m =? 4) || (m =? 6) || (m =? 9) || (m =? 11) then 30 else 31.
Definition obind {A B} (o : option A) (f : A -> option B) : option B := match o with None => None | Some x => f x end.
Definition parse_time (s : bytes) : option Z :=
  obind (take_number 4 s) (fun '(y, s) => obind (take_char x2d s) (fun s =>
  obind (take_number 2 s) (fun '(m, s) => obind (take_char x2d s) (fun s =>
  obind (take_number 2 s) (fun '(d, s) => obind (take_char x20 s) (fun s =>
  obind (take_number 2 s) (fun '(hh, s) => obind (take_char x3a s) (fun s =>
  obind (take_number 2 s) (fun '(mm, s) => obind (take_char x3a s) (fun s =>
  obind (take_number 2 s) (fun '(ss, s) =>
    match s with
    | [] =>
        if (1 <=? m) && (m <=? 12) && (1 <=? d) && (d <=? month_days y m) && (hh <? 24) && (mm <? 60) && (ss <? 60)
        then Some (days_of_civil y m d * 86400 + hh * 3600 + mm * 60 + ss) else None
    | _ => None
    end))))))))))).
Local Close Scope Z_scope.

(** ** Writers. A file is a list of rows of fields. *)
Definition comma : byte := x2c.
Definition newline : byte := x0a.
Definition quote : byte := x22.
Definition backslash : byte := x5c.
Fixpoint join_fields (show : bytes -> bytes) (row : list bytes) : bytes :=
  match row with [] => [] | [f] => show f | f :: row' => show f ++ comma :: join_fields show row' end.
(** updater/csv.go:116 writeCSV, :160 writeCertCSV: the fields as they are. *)
Definition raw_line (row : list bytes) : bytes := join_fields (fun f => f) row ++ [newline].
Definition raw_file (rows : list (list bytes)) : bytes := concat (map raw_line rows).
Section Writer.
  (** unicode.IsSpace of the first rune *)
  Variable first_space : bytes -> bool.
  (** encoding/csv writer.go:147 fieldNeedsQuotes *)
  Definition needs_quotes (f : bytes) : bool :=
    match f with
    | [] => false
    | _ => beqb f [backslash; x2e] ||
           existsb (fun c => Byte.eqb c newline || Byte.eqb c x0d || Byte.eqb c quote || Byte.eqb c comma) f || first_space f
    end.
  (** writer.go:47 Write *)
  Definition double_quotes (f : bytes) : bytes := flat_map (fun c => if Byte.eqb c quote then [quote; quote] else [c]) f.
  Definition csv_field (f : bytes) : bytes := if needs_quotes f then quote :: double_quotes f ++ [quote] else f.
  (** mysql.go:556 writeToCSV *)
  Definition csv_file (rows : list (list bytes)) : bytes := concat (map (fun row => join_fields csv_field row ++ [newline]) rows).
End Writer.

(** ** LOAD DATA: fields terminated by commas and enclosed by double quotes, lines by newlines; the default escape, a backslash. *)
Definition unescape (c : byte) : byte :=
  match c with x6e => x0a | x74 => x09 | x72 => x0d | x62 => x08 | x30 => x00 | x5a => x1a | _ => c end.
(** How a field ended: next field, end of the line, end of the file. *)
Inductive stop := SField | SLine | SEof.
(** read_field after the first character: [enc] inside an enclosed field, [acc] the value so far, reversed, [nul] an escaped N was seen.
    Result: the value, whether it was enclosed, [nul], the end, the rest. *)
Fixpoint read_field (enc : bool) (acc : bytes) (nul : bool) (s : bytes) : bytes * bool * bool * stop * bytes :=
  let eof acc := ((if enc then [quote] else []) ++ rev acc, false, nul, SEof, []) in
  match s with
  | [] => eof acc
  | c :: s' =>
      if Byte.eqb c backslash then
        match s' with
        | [] => eof (backslash :: acc)
        | e :: s'' => read_field enc (unescape e :: acc) (nul || Byte.eqb e x4e) s''
        end
      else if enc then
        if Byte.eqb c quote then
          match s' with
          | [] => (rev acc, true, nul, SEof, [])
          | e :: s'' =>
              if Byte.eqb e quote then read_field enc (quote :: acc) nul s''
              else if Byte.eqb e newline then (rev acc, true, nul, SLine, s'')
              else if Byte.eqb e comma then (rev acc, true, nul, SField, s'')
              else read_field enc (quote :: acc) nul s'
          end
        else read_field enc (c :: acc) nul s'
      else if Byte.eqb c newline then (rev acc, false, nul, SLine, s')
      else if Byte.eqb c comma then (rev acc, false, nul, SField, s')
      else read_field enc (c :: acc) nul s'
  end.
Definition word_null : bytes := [x4e; x55; x4c; x4c].
(** read_sep_field: the value of the field; None is NULL. *)
Definition field_value (r : bytes) (enclosed nul : bool) : option bytes :=
  if negb enclosed && beqb r word_null || nul && (length r =? 1) then None else Some r.
(** At most [n] fields of a line, and the text after them. At the end of the file there is no field. *)
Fixpoint read_fields (n : nat) (s : bytes) : list (option bytes) * stop * bytes :=
  match n with
  | O => ([], SField, s)
  | S n' =>
      match s with
      | [] => ([], SEof, [])
      | c :: s' =>
          let '(v, enclosed, nul, st, rest) := if Byte.eqb c quote then read_field true [] false s' else read_field false [] false s in
          let f := field_value v enclosed nul in
          match st with
          | SField => let '(fs, st', rest') := read_fields n' rest in (f :: fs, st', rest')
          | _ => ([f], st, rest)
          end
      end
  end.
(** next_line: the rest of a line with more fields is skipped, regardless of quotes. *)
Fixpoint skip_line (s : bytes) : bytes :=
  match s with
  | [] => []
  | c :: s' =>
      if Byte.eqb c backslash then match s' with [] => [] | _ :: s'' => skip_line s'' end
      else if Byte.eqb c newline then s' else skip_line s'
  end.
(** The lines of a file with [n] columns. None: out of fuel. *)
Fixpoint read_rows (fuel n : nat) (s : bytes) : option (list (list (option bytes))) :=
  match s with
  | [] => Some []
  | _ =>
      match fuel with
      | O => None
      | S fuel' =>
          let '(fs, st, rest) := read_fields n s in
          obind (read_rows fuel' n (match st with SField => skip_line rest | _ => rest end)) (fun rows => Some (fs :: rows))
      end
  end.
Definition read_file (n : nat) (s : bytes) : option (list (list (option bytes))) := read_rows (length s) n s.

(** ** The four statements. Missing fields are NULL. NULL in a column NOT NULL becomes the empty string (IGNORE, REPLACE: a warning). *)
Definition column (i : nat) (row : list (option bytes)) : option bytes := nth i row None.
Definition id_of (f : option bytes) : bytes := match obind f from_base64 with Some b => b | None => [] end.
Fixpoint all_rows {A B} (f : A -> option B) (l : list A) : option (list B) :=
  match l with [] => Some [] | x :: l' => obind (f x) (fun y => obind (all_rows f l') (fun r => Some (y :: r))) end.
(** certs.go:377 loadCertsTableWithCSV. None: a date outside the model. *)
Definition cert_of (row : list (option bytes)) : option cert_row :=
  obind (column 2 row) (fun e => obind (parse_time e) (fun t => Some (mk_cr (id_of (column 0 row)) (id_of (column 1 row)) t (id_of (column 3 row))))).
Definition load_certs_csv (file : bytes) (d : db) : option db :=
  obind (read_file 4 file) (fun rows => obind (all_rows cert_of rows) (fun rs => Some (load_certs rs d))).
(** dirty.go:307 loadDirtyTableWithCSV *)
Definition load_dirty_csv (file : bytes) (d : db) : option db :=
  obind (read_file 1 file) (fun rows => Some (load_dirty (map (fun row => id_of (column 0 row)) rows) d)).
(** mysql.go:537 loadDomainsTableWithCSV. The name may be NULL. *)
Definition domains_csv (file : bytes) : option (list (bytes * option bytes)) :=
  obind (read_file 2 file) (fun rows => Some (map (fun row => (id_of (column 0 row), column 1 row)) rows)).
(** [d_domains] has no NULL: the empty name stands for it. *)
Definition load_domains_csv (file : bytes) (d : db) : option db :=
  obind (domains_csv file) (fun rows => Some (load_domains (map (fun r => (fst r, match snd r with Some n => n | None => [] end)) rows) d)).
(** certs.go:397 loadDomainCertsTableWithCSV *)
Definition load_dc_csv (file : bytes) (d : db) : option db :=
  obind (read_file 2 file) (fun rows => Some (load_dc (map (fun row => (id_of (column 0 row), id_of (column 1 row))) rows) d)).

(** ** The rows of the files. certs.go:76 and updater/csv.go:212 recordsForCert; no parent is an empty field. *)
Definition cert_fields (r : cert_row) : list bytes := [b64_encode (cr_id r); b64_encode (cr_parent r); format_time (cr_exp r); b64_encode (cr_payload r)].
(** csv.go:220 recordsForDirty, :225 recordsForDomains, :231 recordsForDomainCerts *)
Definition dirty_fields (id : bytes) : list bytes := [b64_encode id].
Definition domain_fields (r : bytes * bytes) : list bytes := [b64_encode (fst r); snd r].
Definition dc_fields (r : bytes * bytes) : list bytes := [b64_encode (fst r); b64_encode (snd r)].

(** updater.go:561 insertCerts with the files: UpdateCerts, InsertDomainsIntoDirty, UpdateDomains, UpdateDomainCerts write with encoding/csv *)
Definition insert_csv (H : bytes -> bytes) (space : bytes -> bool) (names : list (list bytes)) (ids parents : list bytes) (exps : list Z) (payloads : list bytes)
    (d : db) : res (option db) :=
  match ids with
  | [] => Ok (Some d)
  | _ =>
      match cert_rows ids parents exps payloads, name_pairs names ids with
      | Ok rows, Ok ps =>
          Ok (obind (load_certs_csv (csv_file space (map cert_fields rows)) d) (fun d =>
              obind (load_dirty_csv (csv_file space (map (fun p => dirty_fields (H (fst p))) ps)) d) (fun d =>
              obind (load_domains_csv (csv_file space (map (fun p => domain_fields (H (fst p), fst p)) ps)) d) (fun d =>
              load_dc_csv (csv_file space (map (fun p => dc_fields (H (fst p), snd p)) ps)) d))))
      | _, _ => Panic
      end
  end.
