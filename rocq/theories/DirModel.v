(** Model of how the ingest command hands over to the map server: /repo/cmd/ingest/run.go RunIngest for recordctsize, deriveCTLogURLFromIngestDir,
    /repo/cmd/ingest/main.go:205, /repo/pkg/db/mysql/certs.go LastCTlogServerState and UpdateLastCTlogServerState, and
    /repo/pkg/mapserver/updater/updater.go:186, :255 their callers with the URL of the fetcher, which is that of the configuration (httplogfetcher.go:88,
    locallogfetcher.go:134). The size is an argument here; JournalModel has its computation (C29).
    path/filepath for Unix and net/url of the standard library are modelled by their meaning (Clean goes over the parts of the path instead of its bytes).
    A URL with user information or with an address in brackets is not modelled: [Unknown]. No proofs here. *)
From Coq Require Import Strings.String.
From Verif Require Import Base UtilModel DbModel JsonText JsonModel ConfModel DsnModel.
Local Open Scope list_scope.
Local Notation b_ s := (list_byte_of_string s%string).
Local Open Scope bool_scope.
Local Notation length := List.length.

(** ** path/filepath *)
Definition slash : byte := x2f.
(** The texts between the slashes *)
Fixpoint parts (s : bytes) : list bytes :=
  match s with
  | [] => [[]]
  | c :: s' => if Byte.eqb c slash then [] :: parts s' else match parts s' with x :: l => (c :: x) :: l | [] => [[c]] end
  end.
Definition rooted (p : bytes) : bool := starts [slash] p.
Definition dot : bytes := b_ ".".
Definition dotdot : bytes := b_ "..".
(** The parts kept so far, the last one first *)
Definition clean_part (r : bool) (st : list bytes) (x : bytes) : list bytes :=
  if beqb x [] || beqb x dot then st
  else if beqb x dotdot then
    match st with
    | [] => if r then [] else [dotdot]
    | y :: st' => if beqb y dotdot then dotdot :: st else st'
    end
  else x :: st.
Definition kept (p : bytes) : list bytes := fold_left (clean_part (rooted p)) (parts p) [].
Fixpoint join (l : list bytes) : bytes := match l with [] => [] | [x] => x | x :: l' => x ++ slash :: join l' end.
(** Clean *)
Definition clean_path (p : bytes) : bytes :=
  let body := join (rev (kept p)) in
  if rooted p then slash :: body else if beqb body [] then dot else body.
(** Base *)
Fixpoint strip_front (s : bytes) : bytes := match s with c :: s' => if Byte.eqb c slash then strip_front s' else s | [] => [] end.
Definition base (p : bytes) : bytes :=
  if beqb p [] then dot
  else let q := rev (strip_front (rev p)) in if beqb q [] then [slash] else last (parts q) [].

(** ** net/url: Parse and String for a URL with a scheme and a host *)
(** shouldEscape is false in a host *)
Definition host_char (c : byte) : bool := unreserved c || among "!$&'()*+,;=:[]<>" c || Byte.eqb c x22.
(** unescape in a host: only bytes that are not ASCII, and the percent sign, are escaped *)
Fixpoint host_unescape (s : bytes) : option bytes :=
  match s with
  | [] => Some []
  | c :: s' =>
      if Byte.eqb c x25 then
        match s' with
        | a :: b :: r => match hex_value a, hex_value b with
                         | Some x, Some y => if ((x <? 8)%N && negb (Byte.eqb a x32 && Byte.eqb b x35)) then None else prepend [byte_at (x * 16 + y)] (host_unescape r)
                         | _, _ => None
                         end
        | _ => None
        end
      else if (Byte.to_N c <? 128)%N && negb (host_char c) then None
      else prepend [c] (host_unescape s')
  end.
Inductive answer : Type := Url (u : bytes) | Refused | Unknown.
Inductive host_answer : Type := Host (h : bytes) | BadHost | OtherHost.
(** parseAuthority, parseHost *)
Definition parse_authority (a : bytes) : host_answer :=
  if occurs x40 a || starts [x5b] a then OtherHost
  else if match split_last x3a a with Some (_, port) => negb (forallb (within 48 57) port) | None => false end then BadHost
  else match host_unescape a with Some h => Host h | None => BadHost end.
(** Before the first slash, and from it on *)
Fixpoint split_slash (s : bytes) : bytes * bytes :=
  match s with
  | [] => ([], [])
  | c :: s' => if Byte.eqb c slash then ([], s) else let '(a, b) := split_slash s' in (c :: a, b)
  end.
(** run.go:279-286: url.Parse, the checks, String. What has no scheme or no host is refused there, if not by Parse. *)
Definition canonical (text : bytes) : answer :=
  let '(s, frag) := cut x23 text in
  if existsb control s then Refused
  else match get_scheme s with
       | None | Some ([], _) => Refused
       | Some (scheme, rest) =>
           let '(rest, query, force) :=
             match split_first x3f rest with
             | Some (a, b) => (a, b, beqb b [])
             | None => (rest, [], false)
             end in
           if negb (starts [slash; slash] rest) then Refused
           else
             let '(auth, path) := split_slash (skipn 2 rest) in
             match parse_authority auth with
             | OtherHost => Unknown
             | BadHost | Host [] => Refused
             | Host host =>
                 match decoded path_char path, (if beqb frag [] then Some ([], []) else decoded frag_char frag) with
                 | Some (d, raw), Some (f, raw_f) =>
                     Url (map lower_byte scheme ++ x3a :: slash :: slash :: url_escape host_char host ++ encoded path_char d raw ++
                          (if force || negb (beqb query []) then x3f :: query else []) ++
                          (if beqb f [] then [] else x23 :: encoded frag_char f raw_f))
                 | _, _ => Refused
                 end
             end
       end.
(** run.go:274 deriveCTLogURLFromIngestDir *)
Definition unfold_name (s : bytes) : bytes := map (fun c => if Byte.eqb c x5f then slash else c) s.
Definition derive (dir : bytes) : answer := if beqb dir [] then Refused else canonical (unfold_name (base (clean_path dir))).

(** ** The table ctlog_server_last_status: key, size, sth (None: NULL) *)
Definition status : Type := (Z * option bytes)%type.
Definition table : Type := list (bytes * status).
Inductive event : Type :=
| Ingested (dir : bytes) (size : Z)                  (* run.go:103-112 *)
| Served (url : bytes) (size : Z) (sth : option bytes).   (* updater.go:186 *)
Section Table.
  (** common.SHA256Hash *)
  Variable hash : bytes -> bytes.
  (** certs.go:302: REPLACE INTO *)
  Definition update_state (u : bytes) (v : status) (t : table) : table := (hash u, v) :: filter (fun e => negb (beqb (fst e) (hash u))) t.
  (** certs.go:288 *)
  Definition last_state (u : bytes) (t : table) : status :=
    match find (fun e => beqb (fst e) (hash u)) t with Some e => snd e | None => (0%Z, None) end.
  Definition event_step (t : table) (e : event) : table :=
    match e with
    | Ingested dir size => match derive dir with Url u => update_state u (size, None) t | _ => t end
    | Served u size sth => update_state u (size, sth) t
    end.
  Definition after (l : list event) : table := fold_left event_step l [].
End Table.
