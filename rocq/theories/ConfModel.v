(** Model of the configuration files: /repo/pkg/util/time_wrap.go and time.go (times of day as text), /repo/pkg/mapserver/config/config.go,
    /repo/pkg/db/conf.go and /repo/pkg/pca/config.go (the structures), written and read by encoding/json (JsonText.v, JsonModel.v).
    The layout 15:04:05 of time.Parse and time.Format is modelled as in Go 1.25. A file holds what was written; errors of the file system are
    not modelled. An error of Unmarshal is None; ReadConfigFromFile then returns also the part that was read, which its callers ignore.
    A time.Time is in UTC here. No proofs here. *)
From Coq Require Import Strings.String.
From Verif Require Import Base UtilModel DbModel LoadModel PolicyModel JsonText JsonModel ApiText.
Local Open Scope list_scope.
Local Notation b_ s := (list_byte_of_string s%string).

(** ** Times of day *)
Local Open Scope Z_scope.
(** TimeOfDayWrap: days since January 1 of the year 0 and nanoseconds of the day. time.Time{} is January 1 of the year 1; 0 was a leap year. *)
Record tod := mk_tod { td_days : Z; td_ns : Z }.
Definition zero_tod : tod := mk_tod 366 0.
Definition clock (h m s n : Z) : Z := ((h * 60 + m) * 60 + s) * giga + n.
(** time_wrap.go:23 NewTimeOfDay; the arguments are unsigned *)
Definition new_tod (h m s n : N) : tod :=
  let h := if (23 <? h)%N then 23%N else h in
  let m := if (59 <? m)%N then 59%N else m in
  let s := if (59 <? s)%N then 59%N else s in
  let n := if (999999999 <? n)%N then 999999999%N else n in
  mk_tod 0 (clock (Z.of_N h) (Z.of_N m) (Z.of_N s) (Z.of_N n)).
(** time_wrap.go:75, the loop of String; 10 to a negative power is 0 here, the loop does not reach it. None: more than [fuel] rounds *)
Fixpoint decimals (fuel : nat) (nanos dc : Z) : option Z :=
  if 0 <? nanos then match fuel with O => None | S f => decimals f (Z.rem nanos (10 ^ (6 - dc))) (dc + 3) end else Some dc.
(** time_wrap.go:71 String. Format with the layout .000 and so on truncates the nanoseconds to the digits. *)
Definition tod_text (t : tod) : option bytes :=
  let secs := td_ns t / giga in
  let nanos := td_ns t mod giga in
  obind (decimals 8 nanos 0) (fun dc =>
    Some (pad_digits 2 (secs / 3600) ++ x3a :: pad_digits 2 (secs / 60 mod 60) ++ x3a :: pad_digits 2 (secs mod 60) ++
          (if 0 <? dc then x2e :: firstn (Z.to_nat dc) (pad_digits 9 nanos) else []))).
(** time.getnum *)
Definition get_num (fixed : bool) (s : bytes) : option (Z * bytes) :=
  match s with
  | a :: r =>
      if is_digit a then
        match r with
        | b :: r' => if is_digit b then Some (Z.of_N (dec_value [a; b]), r') else if fixed then None else Some (Z.of_N (dec_value [a]), r)
        | [] => if fixed then None else Some (Z.of_N (dec_value [a]), r)
        end
      else None
  | [] => None
  end.
(** time.Parse: a fraction after the seconds is accepted though the layout has none; parseNanoseconds drops digits after the ninth *)
Definition get_fraction (s : bytes) : Z * bytes :=
  match s with
  | c :: (d :: _) as s' =>
      if (Byte.eqb c x2e || Byte.eqb c x2c) && is_digit d then
        let (p, r) := take_digits s' in
        let q := firstn 9 p in (Z.of_N (dec_value q) * 10 ^ Z.of_nat (9 - length q), r)
      else (0, s)
  | _ => (0, s)
  end.
(** time.go:19 ParseTimeOfDay; time_wrap.go:46 Set *)
Definition parse_tod (s : bytes) : option tod :=
  obind (get_num false s) (fun '(h, s) => if negb (h <? 24) then None else
  obind (take_char x3a s) (fun s =>
  obind (get_num true s) (fun '(m, s) => if negb (m <? 60) then None else
  obind (take_char x3a s) (fun s =>
  obind (get_num true s) (fun '(sec, s) => if negb (sec <? 60) then None else
    let '(n, s) := get_fraction s in
    match s with [] => Some (mk_tod 0 (clock h m sec n)) | _ => None end))))).
Local Close Scope Z_scope.

(** ** Maps from strings to strings: a list of pairs with different keys, in any order; None is the nil map *)
Definition gomap := option (list (bytes * bytes)).
Fixpoint find_key (k : bytes) (l : list (bytes * bytes)) : option bytes :=
  match l with [] => None | (k', v) :: l' => if beqb k k' then Some v else find_key k l' end.
Fixpoint set_key (k v : bytes) (l : list (bytes * bytes)) : list (bytes * bytes) :=
  match l with [] => [(k, v)] | (k', v') :: l' => if beqb k k' then (k', v) :: l' else (k', v') :: set_key k v l' end.
(** encoding/json writes the pairs in the order of the keys *)
Fixpoint insert_pair (p : bytes * bytes) (l : list (bytes * bytes)) : list (bytes * bytes) :=
  match l with [] => [p] | q :: l' => match bcmp (fst p) (fst q) with Gt => q :: insert_pair p l' | _ => p :: l end end.
Definition sort_pairs (l : list (bytes * bytes)) : list (bytes * bytes) := fold_right insert_pair [] l.
Definition map_json (m : gomap) : json :=
  match m with None => JNull | Some l => JObj (map (fun kv => (escape (fst kv), JStr (escape (snd kv)))) (sort_pairs l)) end.
(** Reading adds to the map that is there. null is the zero value for a key, here the empty string. *)
Fixpoint read_pairs (l : list (bytes * json)) (m : list (bytes * bytes)) : option (list (bytes * bytes)) :=
  match l with
  | [] => Some m
  | (k, v) :: l' => obind (unquote k) (fun k => obind (read_string [] v) (fun s => read_pairs l' (set_key k s m)))
  end.
Definition read_map (old : gomap) (v : json) : option gomap :=
  match v with JNull => Some None | JObj l => option_map Some (read_pairs l (match old with Some m => m | None => [] end)) | _ => None end.

(** ** config.go:11 Config with conf.go:6 Configuration. No member is dropped when empty. *)
Record dbconf := mk_db { d_dsn : bytes; d_name : bytes; d_values : gomap; d_check : bool }.
Record conf := mk_conf {
  c_urls : option (list bytes); c_folders : gomap; c_db : option dbconf; c_cert : bytes; c_key : bytes; c_port : Z; c_rows : Z; c_at : tod; c_timer : Z }.
Definition with_d_dsn x (s : dbconf) := mk_db x (d_name s) (d_values s) (d_check s).
Definition with_d_name x (s : dbconf) := mk_db (d_dsn s) x (d_values s) (d_check s).
Definition with_d_values x (s : dbconf) := mk_db (d_dsn s) (d_name s) x (d_check s).
Definition with_d_check x (s : dbconf) := mk_db (d_dsn s) (d_name s) (d_values s) x.
Definition with_c_urls x (s : conf) := mk_conf x (c_folders s) (c_db s) (c_cert s) (c_key s) (c_port s) (c_rows s) (c_at s) (c_timer s).
Definition with_c_folders x (s : conf) := mk_conf (c_urls s) x (c_db s) (c_cert s) (c_key s) (c_port s) (c_rows s) (c_at s) (c_timer s).
Definition with_c_db x (s : conf) := mk_conf (c_urls s) (c_folders s) x (c_cert s) (c_key s) (c_port s) (c_rows s) (c_at s) (c_timer s).
Definition with_c_cert x (s : conf) := mk_conf (c_urls s) (c_folders s) (c_db s) x (c_key s) (c_port s) (c_rows s) (c_at s) (c_timer s).
Definition with_c_key x (s : conf) := mk_conf (c_urls s) (c_folders s) (c_db s) (c_cert s) x (c_port s) (c_rows s) (c_at s) (c_timer s).
Definition with_c_port x (s : conf) := mk_conf (c_urls s) (c_folders s) (c_db s) (c_cert s) (c_key s) x (c_rows s) (c_at s) (c_timer s).
Definition with_c_rows x (s : conf) := mk_conf (c_urls s) (c_folders s) (c_db s) (c_cert s) (c_key s) (c_port s) x (c_at s) (c_timer s).
Definition with_c_at x (s : conf) := mk_conf (c_urls s) (c_folders s) (c_db s) (c_cert s) (c_key s) (c_port s) (c_rows s) x (c_timer s).
Definition with_c_timer x (s : conf) := mk_conf (c_urls s) (c_folders s) (c_db s) (c_cert s) (c_key s) (c_port s) (c_rows s) (c_at s) x.

(** Writing. TimeOfDayWrap has MarshalJSON, DurationWrap has MarshalText: both are strings. *)
Definition db_json (d : dbconf) : json :=
  JObj [(b_ "Dsn", JStr (escape (d_dsn d))); (b_ "DBName", JStr (escape (d_name d))); (b_ "Values", map_json (d_values d));
        (b_ "CheckSchema", JBool (d_check d))].
Definition conf_json (c : conf) : option json :=
  obind (tod_text (c_at c)) (fun at_ => Some (
    JObj [(b_ "CTLogServerURLs", match c_urls c with None => JNull | Some l => JArr (strings l) end);
          (b_ "CertificateFolders", map_json (c_folders c));
          (b_ "DBConfig", match c_db c with None => JNull | Some d => db_json d end);
          (b_ "CertificatePemFile", JStr (escape (c_cert c))); (b_ "PrivateKeyPemFile", JStr (escape (c_key c)));
          (b_ "HttpAPIPort", JNum (dec_Z (c_port c))); (b_ "CsvIngestionMaxRows", JNum (dec_Z (c_rows c)));
          (b_ "UpdateAt", JStr (escape at_)); (b_ "UpdateTimer", JStr (escape (fmt_duration (c_timer c))))])).
(** config.go:38 WriteConfigurationToFile; None: String does not end *)
Definition write_conf (c : option conf) : option bytes :=
  match c with None => Some (print JNull) | Some c => option_map print (conf_json c) end.

(** Reading *)
(** strconv.ParseUint *)
Definition read_uint (old : Z) (v : json) : option Z :=
  match v with
  | JNull => Some old
  | JNum t => if forallb is_digit t && (Z.of_N (dec_value t) <? 2 ^ 64)%Z then Some (Z.of_N (dec_value t)) else None
  | _ => None
  end.
Definition read_urls (old : option (list bytes)) (v : json) : option (option (list bytes)) :=
  match v with
  | JNull => Some None
  | JArr l => option_map Some (read_elements read_string [] (match old with Some o => o | None => [] end) l)
  | _ => None
  end.
(** time_wrap.go:55 UnmarshalJSON is called also for null, which leaves s empty *)
Definition read_tod (old : tod) (v : json) : option tod := obind (read_string [] v) parse_tod.
(** UnmarshalText is called for strings, null leaves the value *)
Definition read_timer (old : Z) (v : json) : option Z :=
  match v with JNull => Some old | JStr raw => obind (unquote raw) parse_duration | _ => None end.
Definition zero_db : dbconf := mk_db [] [] None false.
Definition db_table : table dbconf :=
  [entry (b_ "Dsn") d_dsn read_string with_d_dsn; entry (b_ "DBName") d_name read_string with_d_name;
   entry (b_ "Values") d_values read_map with_d_values; entry (b_ "CheckSchema") d_check read_bool with_d_check].
Definition zero_conf : conf := mk_conf None None None [] [] 0 0 zero_tod 0.
Definition conf_table : table conf :=
  [entry (b_ "CTLogServerURLs") c_urls read_urls with_c_urls; entry (b_ "CertificateFolders") c_folders read_map with_c_folders;
   entry (b_ "DBConfig") c_db (read_pointer db_table zero_db) with_c_db; entry (b_ "CertificatePemFile") c_cert read_string with_c_cert;
   entry (b_ "PrivateKeyPemFile") c_key read_string with_c_key; entry (b_ "HttpAPIPort") c_port read_int with_c_port;
   entry (b_ "CsvIngestionMaxRows") c_rows read_uint with_c_rows; entry (b_ "UpdateAt") c_at read_tod with_c_at;
   entry (b_ "UpdateTimer") c_timer read_timer with_c_timer].
(** config.go:24 ReadConfigFromFile *)
Definition read_conf (text : bytes) : option conf := obind (parse text) (read_struct conf_table zero_conf).

(** ** json.MarshalIndent with three spaces: a line for each element and member; empty arrays and objects stay on their line *)
Definition new_line (depth : nat) : bytes := x0a :: repeat x20 (3 * depth).
Fixpoint indented (depth : nat) (v : json) : bytes :=
  match v with
  | JArr [] => b_ "[]"
  | JArr l => x5b :: commas ((fix go l := match l with [] => [] | x :: l' => (new_line (S depth) ++ indented (S depth) x) :: go l' end) l)
              ++ new_line depth ++ [x5d]
  | JObj [] => b_ "{}"
  | JObj l => x7b :: commas ((fix go l := match l with [] => []
                                     | (k, x) :: l' => (new_line (S depth) ++ quoted k ++ x3a :: x20 :: indented (S depth) x) :: go l' end) l)
              ++ new_line depth ++ [x7d]
  | _ => print v
  end.

(** ** pca/config.go:10 PCAConfig and :17 CTLogServerEntryConfig, all members with omitempty *)
Record log_conf := mk_log { l_name : bytes; l_url : bytes; l_key : slice }.
Record pca_conf := mk_pca { pc_name : bytes; pc_logs : list log_conf; pc_key : slice; pc_cert : slice }.
Definition with_l_name x (s : log_conf) := mk_log x (l_url s) (l_key s).
Definition with_l_url x (s : log_conf) := mk_log (l_name s) x (l_key s).
Definition with_l_key x (s : log_conf) := mk_log (l_name s) (l_url s) x.
Definition with_pc_name x (s : pca_conf) := mk_pca x (pc_logs s) (pc_key s) (pc_cert s).
Definition with_pc_logs x (s : pca_conf) := mk_pca (pc_name s) x (pc_key s) (pc_cert s).
Definition with_pc_key x (s : pca_conf) := mk_pca (pc_name s) (pc_logs s) x (pc_cert s).
Definition with_pc_cert x (s : pca_conf) := mk_pca (pc_name s) (pc_logs s) (pc_key s) x.
Definition log_json (l : log_conf) : json :=
  JObj (string_member (b_ "Name") (l_name l) ++ string_member (b_ "URL") (l_url l) ++ slice_member (b_ "PublicKeyDER") (l_key l)).
Definition pca_json (p : pca_conf) : json :=
  JObj (string_member (b_ "CAName") (pc_name p) ++ list_member (b_ "CTLogServers") (map log_json (pc_logs p)) ++
        slice_member (b_ "KeyPEM") (pc_key p) ++ slice_member (b_ "CertJSON") (pc_cert p)).
(** pca/config.go:25 SaveConfigToFile *)
Definition write_pca (p : pca_conf) : bytes := indented 0 (pca_json p).
Definition zero_log : log_conf := mk_log [] [] None.
Definition zero_pca : pca_conf := mk_pca [] [] None None.
Definition log_table : table log_conf :=
  [entry (b_ "Name") l_name read_string with_l_name; entry (b_ "URL") l_url read_string with_l_url;
   entry (b_ "PublicKeyDER") l_key read_slice with_l_key].
Definition pca_table : table pca_conf :=
  [entry (b_ "CAName") pc_name read_string with_pc_name;
   entry (b_ "CTLogServers") pc_logs (read_list (read_struct log_table) zero_log) with_pc_logs;
   entry (b_ "KeyPEM") pc_key read_slice with_pc_key; entry (b_ "CertJSON") pc_cert read_slice with_pc_cert].
(** pca/config.go:40 ReadConfigFromFile, into the configuration of the caller *)
Definition read_pca (config : pca_conf) (text : bytes) : option pca_conf := obind (parse text) (read_struct pca_table config).
