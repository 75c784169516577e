(** Model of how a connection to the database is configured: /repo/pkg/db/conf.go, /repo/pkg/db/mysql/conf.go and /repo/pkg/db/mysql/init.go up to
    sql.Open, with net/url (Go 1.25) and the reading of a data source name by the driver (go-sql-driver/mysql, ParseDSN) as far as used.
    A map is a list of pairs with different keys, in any order; reading nil or a missing key gives the empty string, deleting does nothing then. *)
From Coq Require Import Strings.String.
From Verif Require Import Base UtilModel DbModel JsonText JsonModel ConfModel.
Local Open Scope list_scope.
Local Notation b_ s := (list_byte_of_string s%string).
Local Open Scope bool_scope.

(** ** conf.go: NewConfig with its modifiers. A modifier that writes to a nil map panics; NewConfig makes the map, so it is a list here. *)
Definition key_db : bytes := b_ "DBNAME".
Definition key_user : bytes := b_ "MYSQL_USER".
Definition key_password : bytes := b_ "MYSQL_PASSWORD".
Definition key_host : bytes := b_ "MYSQL_HOST".
Definition key_port : bytes := b_ "MYSQL_PORT".
Definition key_socket : bytes := b_ "MYSQL_LOCALSOCKET".
Definition pairs := list (bytes * bytes).
Definition modifier := pairs -> pairs.
Definition set_pairs (l : pairs) : modifier := fun m => fold_left (fun m kv => set_key (fst kv) (snd kv) m) l m.
(** conf.go:17 *)
Definition new_config (ms : list modifier) : dbconf := mk_db [] [] (Some (fold_left (fun m f => f m) ms [(key_db, b_ "fpki")])) false.
(** conf.go:29 WithDB, mysql/conf.go:45 WithUser, :56 WithLocalSocket *)
Definition with_db (name : bytes) : modifier := set_key key_db name.
Definition with_user (user : bytes) : modifier := set_key key_user user.
Definition with_socket (path : bytes) : modifier := set_key key_socket path.
Definition basics : pairs := [(key_user, b_ "root"); (key_password, []); (key_host, b_ "127.0.0.1"); (key_port, [])].
(** mysql/conf.go:22 WithEnvironment; [env]: os.LookupEnv *)
Definition with_environment (env : bytes -> option bytes) : modifier :=
  set_pairs (map (fun kv => (fst kv, match env (fst kv) with Some v => v | None => snd kv end)) basics).
(** :63 WithDefaults *)
Definition with_defaults : modifier :=
  set_pairs (basics ++ [(b_ "interpolateParams", b_ "true"); (b_ "collation", b_ "binary"); (b_ "maxAllowedPacket", b_ "1073741824");
    (b_ "parseTime", b_ "true"); (b_ "transaction_isolation", b_ "'READ-UNCOMMITTED'"); (b_ "autocommit", b_ "true")]).

(** ** init.go:53 parseDSN: the name and the values that are left *)
Definition look (k : bytes) (m : gomap) : option bytes := match m with Some l => find_key k l | None => None end.
Definition val (k : bytes) (m : gomap) : bytes := match look k m with Some v => v | None => [] end.
Definition delete (k : bytes) (m : gomap) : gomap := option_map (filter (fun kv => negb (beqb (fst kv) k))) m.
Definition dsn_text (m : gomap) : bytes :=
  val key_user m ++
  match look key_socket m with
  | Some path => b_ "@unix(" ++ path ++ b_ ")/" ++ val key_db m
  | None => (if beqb (val key_password m) [] then [] else x3a :: val key_password m) ++ b_ "@tcp(" ++ val key_host m ++
            (if beqb (val key_port m) [] then [] else x3a :: val key_port m) ++ b_ ")/" ++ val key_db m
  end.
Definition strip (m : gomap) : gomap := delete key_socket (delete key_port (delete key_host (delete key_password (delete key_user m)))).
(** :15 Connect: what it does to the configuration *)
Definition settle (c : dbconf) : dbconf :=
  if beqb (d_dsn c) [] then mk_db (dsn_text (d_values c)) (val key_db (d_values c)) (delete key_db (strip (d_values c))) (d_check c) else c.

(** ** net/url *)
Definition alnum (c : byte) : bool := within 48 57 c || within 65 90 c || within 97 122 c.
Definition among (s : string) (c : byte) : bool := existsb (Byte.eqb c) (list_byte_of_string s).
Definition unreserved (c : byte) : bool := alnum c || among "-_.~" c.
(** shouldEscape is false in a path, in a fragment, in a query *)
Definition path_char (c : byte) : bool := unreserved c || among "$&+,/:;=@" c.
Definition frag_char (c : byte) : bool := path_char c || among "?!()*" c.
Definition valid_encoded (ok : byte -> bool) (s : bytes) : bool := forallb (fun c => among "!$&'()*+,;=:@[]%" c || ok c) s.
Definition upper_hex (n : N) : byte := if (n <? 10)%N then digit_byte n else byte_at (55 + n).
Definition percent (c : byte) : bytes := [x25; upper_hex (Byte.to_N c / 16); upper_hex (Byte.to_N c mod 16)].
Definition url_escape (ok : byte -> bool) (s : bytes) : bytes := flat_map (fun c => if ok c then [c] else percent c) s.
Definition query_escape (s : bytes) : bytes := flat_map (fun c => if unreserved c then [c] else if Byte.eqb c x20 then [x2b] else percent c) s.
Fixpoint url_unescape (plus : bool) (s : bytes) : option bytes :=
  match s with
  | [] => Some []
  | c :: s' =>
      if Byte.eqb c x25 then
        match s' with
        | a :: b :: r => match hex_value a, hex_value b with
                         | Some x, Some y => prepend [byte_at (x * 16 + y)] (url_unescape plus r)
                         | _, _ => None
                         end
        | _ => None
        end
      else prepend [if plus && Byte.eqb c x2b then x20 else c] (url_unescape plus s')
  end.
(** strings.Cut *)
Fixpoint split_first (c : byte) (s : bytes) : option (bytes * bytes) :=
  match s with
  | [] => None
  | d :: s' => if Byte.eqb d c then Some ([], s') else match split_first c s' with Some (a, b) => Some (d :: a, b) | None => None end
  end.
Definition cut (c : byte) (s : bytes) : bytes * bytes := match split_first c s with Some p => p | None => (s, []) end.
Fixpoint split_last (c : byte) (s : bytes) : option (bytes * bytes) :=
  match s with
  | [] => None
  | d :: s' => match split_last c s' with
               | Some (a, b) => Some (d :: a, b)
               | None => if Byte.eqb d c then Some ([], s') else None
               end
  end.
Definition occurs (c : byte) (s : bytes) : bool := existsb (fun d => Byte.eqb d c) s.
Definition starts (p s : bytes) : bool := beqb (firstn (length p) s) p.
(** getScheme: the scheme, possibly empty, and the rest; None: missing protocol scheme *)
Fixpoint scheme_from (acc s whole : bytes) : option (bytes * bytes) :=
  match s with
  | [] => Some ([], whole)
  | c :: s' =>
      if within 65 90 c || within 97 122 c then scheme_from (acc ++ [c]) s' whole
      else if within 48 57 c || among "+-." c then (if beqb acc [] then Some ([], whole) else scheme_from (acc ++ [c]) s' whole)
      else if Byte.eqb c x3a then (if beqb acc [] then None else Some (acc, s'))
      else Some ([], whole)
  end.
Definition get_scheme (s : bytes) : option (bytes * bytes) := scheme_from [] s s.
Definition lower_byte (c : byte) : byte := if within 65 90 c then byte_at (Byte.to_N c + 32) else c.
Definition control (c : byte) : bool := (Byte.to_N c <? 32)%N || Byte.eqb c x7f.
(** The members of url.URL but User and Host *)
Record url := mk_url { u_scheme : bytes; u_opaque : bytes; u_path : bytes; u_raw_path : bytes; u_query : bytes; u_force : bool; u_frag : bytes; u_raw_frag : bytes }.
(** A text with an authority, after two slashes, is not modelled: [POther]. *)
Inductive parsed := POk (u : url) | PErr | POther.
(** setPath, setFragment: the decoded text, and the text itself if it is not the standard encoding *)
Definition decoded (ok : byte -> bool) (s : bytes) : option (bytes * bytes) :=
  match url_unescape false s with None => None | Some d => Some (d, if beqb (url_escape ok d) s then [] else s) end.
Definition parse_rest (s : bytes) : parsed :=
  if existsb control s then PErr
  else if beqb s (b_ "*") then POk (mk_url [] [] (b_ "*") [] [] false [] [])
  else match get_scheme s with
       | None => PErr
       | Some (scheme, rest) =>
           let scheme := map lower_byte scheme in
           let '(rest, query, force) :=
             match split_first x3f rest with
             | Some (a, b) => (a, b, beqb b [])
             | None => (rest, [], false)
             end in
           if negb (starts [x2f] rest) && negb (beqb scheme []) then POk (mk_url scheme rest [] [] query force [] [])
           else if negb (starts [x2f] rest) && occurs x3a (fst (cut x2f rest)) then PErr
           else if starts [x2f; x2f] rest && (negb (beqb scheme []) || negb (starts [x2f; x2f; x2f] rest)) then POther
           else match decoded path_char rest with
                | None => PErr
                | Some (d, raw) => POk (mk_url scheme [] d raw query force [] [])
                end
       end.
(** Parse *)
Definition url_parse (s : bytes) : parsed :=
  let '(s, frag) := cut x23 s in
  match parse_rest s with
  | POk u => if beqb frag [] then POk u
             else match decoded frag_char frag with
                  | None => PErr
                  | Some (d, raw) => POk (mk_url (u_scheme u) (u_opaque u) (u_path u) (u_raw_path u) (u_query u) (u_force u) d raw)
                  end
  | r => r
  end.
(** EscapedPath, EscapedFragment *)
Definition encoded (ok : byte -> bool) (d raw : bytes) : bytes :=
  if negb (beqb raw []) && valid_encoded ok raw && match url_unescape false raw with Some d' => beqb d' d | None => false end then raw
  else url_escape ok d.
(** String. If there is no authority the slashes of it are left out, or the path begins with three, which is [POther] with a scheme. *)
Definition url_string (u : url) : bytes :=
  (if beqb (u_scheme u) [] then [] else u_scheme u ++ [x3a]) ++
  (if beqb (u_opaque u) [] then
     let path := if beqb (u_path u) (b_ "*") && beqb (u_raw_path u) [] then b_ "*" else encoded path_char (u_path u) (u_raw_path u) in
     (if beqb (u_scheme u) [] && occurs x3a (fst (cut x2f path)) then b_ "./" else []) ++ path
   else u_opaque u) ++
  (if u_force u || negb (beqb (u_query u) []) then x3f :: u_query u else []) ++
  (if beqb (u_frag u) [] then [] else x23 :: encoded frag_char (u_frag u) (u_raw_frag u)).
(** ParseQuery without its errors; all values of a key in their order, as pairs *)
Fixpoint split_all (c : byte) (s acc : bytes) : list bytes :=
  match s with
  | [] => [acc]
  | d :: s' => if Byte.eqb d c then acc :: split_all c s' [] else split_all c s' (acc ++ [d])
  end.
Definition query_pair (s : bytes) : pairs :=
  if occurs x3b s || beqb s [] then []
  else let '(k, v) := cut x3d s in
       match url_unescape true k, url_unescape true v with Some k, Some v => [(k, v)] | _, _ => [] end.
Definition parse_query (s : bytes) : pairs := flat_map query_pair (split_all x26 s []).
(** Encode *)
Definition join_amp (l : list bytes) : bytes := match l with [] => [] | x :: l' => x ++ flat_map (fun y => x26 :: y) l' end.
Definition encode_query (l : pairs) : bytes := join_amp (map (fun kv => query_escape (fst kv) ++ x3d :: query_escape (snd kv)) (sort_pairs l)).
(** init.go:83 connect: the text given to sql.Open *)
Inductive opened := Opens (text : bytes) | BadString | NotModelled.
Definition connect (c : dbconf) : opened :=
  match url_parse (d_dsn c) with
  | PErr => BadString
  | POther => NotModelled
  | POk u => let q := encode_query (parse_query (u_query u) ++ match d_values c with Some l => l | None => [] end) in
             Opens (url_string (mk_url (u_scheme u) (u_opaque u) (u_path u) (u_raw_path u) q (u_force u) (u_frag u) (u_raw_frag u)))
  end.

(** ** The driver: [user[:password]@][net[(addr)]]/dbname[?param1=value1&...], before its defaults. A parameter is kept as its text: those the driver
    knows are taken as they are, those for the server are unescaped. *)
Record target := mk_target { t_user : bytes; t_password : bytes; t_net : bytes; t_addr : bytes; t_name : bytes; t_params : pairs }.
Definition driver_params (s : bytes) : pairs := flat_map (fun p => match split_first x3d p with Some kv => [kv] | None => [] end) (split_all x26 s []).
Definition ends_with (c : byte) (s : bytes) : bool := match rev s with d :: _ => Byte.eqb d c | [] => false end.
Definition driver_parse (s : bytes) : option target :=
  match split_last x2f s with
  | None => if beqb s [] then Some (mk_target [] [] [] [] [] []) else None
  | Some (before, after) =>
      let '(user, password, rest) :=
        match split_last x40 before with
        | Some (a, b) => match split_first x3a a with Some (u, p) => (u, p, b) | None => (a, [], b) end
        | None => ([], [], before)
        end in
      match (match split_first x28 rest with
             | Some (net, r) => if ends_with x29 r then Some (net, removelast r) else None
             | None => Some (rest, [])
             end) with
      | None => None
      | Some (net, addr) =>
          let '(name, params) := cut x3f after in
          match url_unescape false name with
          | None => None
          | Some name => Some (mk_target user password net addr name (driver_params params))
          end
      end
  end.
(** Connect up to the driver *)
Definition reach (c : dbconf) : option target := match connect (settle c) with Opens text => driver_parse text | _ => None end.
