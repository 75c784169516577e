(** Model of the command lines of the ingest command and of the map server: /repo/cmd/ingest/cmdflags/flags.go, /repo/cmd/ingest/main.go:58-71, :257 mainFunction up to
    the configuration, /repo/cmd/ingest/run.go:50 validate, /repo/cmd/ingest/journal/journal.go:113 NewJobConfiguration, the numbers of workers as
    /repo/cmd/ingest/processor.go:38, :189-201, :248-256 and /repo/pkg/mapserver/updater/manager.go:39 take them, and /repo/cmd/mapserver/main.go:31 mainFunc.
    The packages flag and strconv of the standard library are modelled by their meaning: FlagSet.parseOne with ExitOnError, ParseBool, and ParseInt of base 0 and 64 bits (an int has 64 bits).
    The flags which imported packages add to the ingest command (glog) are a parameter; the map server drops them. What is printed is not modelled.
    A slice of a negative length panics; memory running out for a large one is not modelled. No proofs here. *)
From Coq Require Import Strings.String.
From Verif Require Import Base UtilModel DbModel JsonText JsonModel ConfModel DsnModel WireModel.
Local Open Scope list_scope.
Local Notation b_ s := (list_byte_of_string s%string).
Local Open Scope bool_scope.
Local Notation length := List.length.

Definition minus : byte := x2d.
Definition equals : byte := x3d.
Definition underscore : byte := x5f.

(** ** strconv *)
(** ParseBool *)
Definition parse_bool (s : bytes) : option bool :=
  if existsb (beqb s) [b_ "1"; b_ "t"; b_ "T"; b_ "true"; b_ "TRUE"; b_ "True"] then Some true
  else if existsb (beqb s) [b_ "0"; b_ "f"; b_ "F"; b_ "false"; b_ "FALSE"; b_ "False"] then Some false
  else None.
(** lower: sets one bit *)
Definition low (c : byte) : Z := Z.of_N (N.lor (Byte.to_N c) 32).
Definition digit_of (c : byte) : option Z :=
  let n := Z.of_N (Byte.to_N c) in
  if ((48 <=? n) && (n <=? 57))%Z then Some (n - 48)%Z
  else if ((97 <=? low c) && (low c <=? 122))%Z then Some (low c - 87)%Z
  else None.
Fixpoint value_in (base : Z) (s : bytes) (acc : Z) : option Z :=
  match s with
  | [] => Some acc
  | c :: s' =>
      if Byte.eqb c underscore then value_in base s' acc
      else match digit_of c with
           | Some d => if (d <? base)%Z then value_in base s' (acc * base + d)%Z else None
           | None => None
           end
  end.
(** The base and the digits. 0b, 0o and 0x need a further byte; every other 0 in front means base 8. *)
Definition base_of (u : bytes) : Z * bytes :=
  match u with
  | x30 :: c :: d :: r =>
      if (low c =? 98)%Z then (2%Z, d :: r) else if (low c =? 111)%Z then (8%Z, d :: r) else if (low c =? 120)%Z then (16%Z, d :: r) else (8%Z, c :: d :: r)
  | x30 :: r => (8%Z, r)
  | _ => (10%Z, u)
  end.
(** underscoreOK: an underscore stands between digits; the base in front counts as a digit. *)
Inductive seen := Begin | Digit | Under | Other.
Fixpoint under_scan (hex : bool) (saw : seen) (s : bytes) : bool :=
  match s with
  | [] => match saw with Under => false | _ => true end
  | c :: s' =>
      if is_digit c || (hex && ((97 <=? low c) && (low c <=? 102))%Z) then under_scan hex Digit s'
      else if Byte.eqb c underscore then match saw with Digit => under_scan hex Under s' | _ => false end
      else match saw with Under => false | _ => under_scan hex Other s' end
  end.
Definition under_ok (u : bytes) : bool :=
  match u with
  | x30 :: c :: r => if (low c =? 98)%Z || (low c =? 111)%Z then under_scan false Digit r else if (low c =? 120)%Z then under_scan true Digit r else under_scan false Begin u
  | _ => under_scan false Begin u
  end.
(** ParseInt(s, 0, 64) *)
Definition parse_int0 (s : bytes) : option Z :=
  let unsigned (neg : bool) (u : bytes) :=
    match u with
    | [] => None
    | _ =>
        let (base, ds) := base_of u in
        match value_in base ds 0 with
        | None => None
        | Some v =>
            if existsb (Byte.eqb underscore) ds && negb (under_ok u) then None
            else let v := (if neg then - v else v)%Z in if ((- 2 ^ 63 <=? v) && (v <? 2 ^ 63))%Z then Some v else None
        end
    end in
  match s with
  | c :: s' => if Byte.eqb c x2b then unsigned false s' else if Byte.eqb c x2d then unsigned true s' else unsigned false s
  | [] => None
  end.

(** ** flag *)
Inductive kind := KText | KInt | KBool.
Inductive value := VText (s : bytes) | VInt (z : Z) | VBool (b : bool).
(** The name, the kind and the variable; two names may share a variable. *)
Definition flagdef : Type := bytes * kind * bytes.
Definition look (defs : list flagdef) (name : bytes) : option (kind * bytes) :=
  match find (fun d => beqb (fst (fst d)) name) defs with Some (_, k, v) => Some (k, v) | None => None end.
(** Value.Set *)
Definition read_value (k : kind) (t : bytes) : option value :=
  match k with
  | KText => Some (VText t)
  | KInt => option_map VInt (parse_int0 t)
  | KBool => option_map VBool (parse_bool t)
  end.
Inductive arg := Positional | Terminator | Malformed | Named (name : bytes) (given : option bytes).
(** parseOne up to the name: one or two minuses; the text after the first equals sign. *)
Definition classify (s : bytes) : arg :=
  match s with
  | m :: c :: r =>
      if negb (Byte.eqb m minus) then Positional
      else if Byte.eqb c minus && beqb r [] then Terminator
      else
        let name := if Byte.eqb c minus then r else c :: r in
        match name with
        | [] => Malformed
        | d :: _ =>
            if Byte.eqb d minus || Byte.eqb d equals then Malformed
            else match split_first equals name with Some (n, t) => Named n (Some t) | None => Named name None end
        end
  | _ => Positional
  end.
Definition env : Type := bytes -> value.
Definition upd (e : env) (v : bytes) (x : value) : env := fun w => if beqb w v then x else e w.
Inductive parsed := Parsed (e : env) (rest : list bytes) | Bad | Help.
(** Parse: the rest are the arguments after the flags. *)
Fixpoint parse (defs : list flagdef) (e : env) (args : list bytes) : parsed :=
  match args with
  | [] => Parsed e []
  | s :: args' =>
      match classify s with
      | Positional => Parsed e args
      | Terminator => Parsed e args'
      | Malformed => Bad
      | Named name given =>
          match look defs name with
          | None => if beqb name (b_ "help") || beqb name (b_ "h") then Help else Bad
          | Some (k, v) =>
              match k, given with
              | KBool, None => parse defs (upd e v (VBool true)) args'
              | _, Some t => match read_value k t with Some x => parse defs (upd e v x) args' | None => Bad end
              | _, None =>
                  match args' with
                  | [] => Bad
                  | t :: args'' => match read_value k t with Some x => parse defs (upd e v x) args'' | None => Bad end
                  end
              end
          end
      end
  end.
Definition text_of (x : value) : bytes := match x with VText s => s | _ => [] end.
Definition int_of (x : value) : Z := match x with VInt z => z | _ => 0%Z end.
Definition bool_of (x : value) : bool := match x with VBool b => b | _ => false end.
(** flag.Arg *)
Definition first_arg (rest : list bytes) : bytes := match rest with s :: _ => s | [] => [] end.

(** ** The ingest command *)
(** flags.go:46; the variables carry the names of the flags. *)
Definition own_flags : list flagdef :=
  [(b_ "cpuprofile", KText, b_ "cpuprofile"); (b_ "memprofile", KText, b_ "memprofile"); (b_ "dbname", KText, b_ "dbname");
   (b_ "multiinsert", KInt, b_ "multiinsert"); (b_ "numfiles", KInt, b_ "numfiles"); (b_ "numparsers", KInt, b_ "numparsers");
   (b_ "numdechainers", KInt, b_ "numdechainers"); (b_ "numdbworkers", KInt, b_ "numdbworkers"); (b_ "strategy", KText, b_ "strategy");
   (b_ "filebatch", KInt, b_ "filebatch"); (b_ "journal", KText, b_ "journal");
   (b_ "includeplaincsvs", KBool, b_ "includeplaincsvs"); (b_ "skipmissingfiles", KBool, b_ "skipmissingfiles")].
(** :32-41 *)
Definition own_defaults : env := fun v =>
  if beqb v (b_ "dbname") then VText (b_ "fpki")
  else if beqb v (b_ "multiinsert") then VInt 10000
  else if beqb v (b_ "numfiles") then VInt 4
  else if beqb v (b_ "numparsers") then VInt 32
  else if beqb v (b_ "numdechainers") then VInt 4
  else if beqb v (b_ "numdbworkers") then VInt 32
  else if beqb v (b_ "filebatch") then VInt 0
  else if beqb v (b_ "journal") then VText (b_ "fpki-journal.json")
  else if beqb v (b_ "includeplaincsvs") then VBool false
  else if beqb v (b_ "skipmissingfiles") then VBool false
  else VText [].
(** run.go:17 RunConfig *)
Record config := mk_config {
  directory : bytes; strategy : bytes; journal_file : bytes; db_name : bytes; file_batch : Z; multi_insert : Z; num_files : Z; num_parsers : Z; num_dechainers : Z;
  num_writers : Z; plain_csvs : bool; skip_missing : bool; cpu_profile : bytes; mem_profile : bytes }.
(** main.go:257 *)
Definition config_from (e : env) (rest : list bytes) : config :=
  mk_config (first_arg rest) (text_of (e (b_ "strategy"))) (text_of (e (b_ "journal"))) (text_of (e (b_ "dbname"))) (int_of (e (b_ "filebatch")))
    (int_of (e (b_ "multiinsert"))) (int_of (e (b_ "numfiles"))) (int_of (e (b_ "numparsers"))) (int_of (e (b_ "numdechainers"))) (int_of (e (b_ "numdbworkers")))
    (bool_of (e (b_ "includeplaincsvs"))) (bool_of (e (b_ "skipmissingfiles"))) (text_of (e (b_ "cpuprofile"))) (text_of (e (b_ "memprofile"))).
Record phases := mk_phases { p_ingest : bool; p_coalesce : bool; p_smt : bool; p_record : bool }.
(** journal.go:113 *)
Definition job (s : bytes) : option phases :=
  if beqb s (b_ "onlyingest") then Some (mk_phases true false false false)
  else if beqb s [] then Some (mk_phases true true true false)
  else if beqb s (b_ "skipingest") then Some (mk_phases false true true false)
  else if beqb s (b_ "onlysmtupdate") then Some (mk_phases false false true false)
  else if beqb s (b_ "recordctsize") then Some (mk_phases false false false true)
  else None.
(** run.go:50 *)
Definition validate (c : config) : option phases :=
  match job (strategy c) with
  | None => None
  | Some p => if p_ingest p && beqb (directory c) [] then None else if p_record p && beqb (directory c) [] then None else Some p
  end.
Inductive ended := Exits (code : nat) | Goes (c : config) (p : phases).
(** main.go:58-71 *)
Definition ingest_main (more : list flagdef) (args : list bytes) : ended :=
  match parse (own_flags ++ more) own_defaults args with
  | Bad => Exits 2
  | Help => Exits 0
  | Parsed e rest => let c := config_from e rest in match validate c with None => Exits 1 | Some p => Goes c p end
  end.
(** What NewProcessor makes of the numbers of the configuration: the manager first. *)
Definition processor_of (c : config) : made :=
  if (num_writers c <? 0)%Z then Panicked
  else if (0 <? num_writers c)%Z && ((multi_insert c <? 0) || (num_files c <? 0) || (num_parsers c <? 0) || (num_dechainers c <? 0))%Z then Panicked
  else processor_resume (Z.to_nat (num_files c)) (Z.to_nat (num_parsers c)) (Z.to_nat (num_dechainers c)) (Z.to_nat (num_writers c)).

(** ** The map server *)
(** main.go:43-49; "version" and "v" share a variable *)
Definition server_flags : list flagdef :=
  [(b_ "version", KBool, b_ "version"); (b_ "v", KBool, b_ "version"); (b_ "updateNow", KBool, b_ "updateNow");
   (b_ "createSampleConfig", KBool, b_ "createSampleConfig"); (b_ "policyFile", KText, b_ "policyFile")].
Definition server_defaults : env := fun v => if beqb v (b_ "policyFile") then VText [] else VBool false.
Inductive server := SExits (code : nat) | SVersion | SSample (file : bytes) | SPolicy (policy file : bytes) | SRuns (update_now : bool) (file : bytes).
(** :31 *)
Definition server_main (args : list bytes) : server :=
  match parse server_flags server_defaults args with
  | Bad => SExits 2
  | Help => SExits 0
  | Parsed e rest =>
      if bool_of (e (b_ "version")) then SVersion
      else match rest with
           | [file] =>
               if bool_of (e (b_ "createSampleConfig")) then SSample file
               else let p := text_of (e (b_ "policyFile")) in if beqb p [] then SRuns (bool_of (e (b_ "updateNow"))) file else SPolicy p file
           | _ => SExits 1
           end
  end.
