(** Model of the text of the journal file, /repo/cmd/ingest/journal/journal.go: write (320, json.MarshalIndent with two spaces) and read (396,
    json.Unmarshal and normalize), with all fields of Journal and Job (22-69), over JsonText and JsonModel. JournalModel has what happens to the fields.
    Jobs is nil exactly if it is empty: NewJournal appends a job before it writes. The output of CompletedIndices.MarshalJSON (462) is compact already, so
    that encoding/json compacts it without effect. The type of the fields is int64, uint64, bool and string. No proofs here. *)
From Coq Require Import Strings.String.
From Verif Require Import Base UtilModel DbModel LoadModel PolicyModel JournalModel JsonText JsonModel.
Local Open Scope list_scope.
Local Notation b_ s := (list_byte_of_string s%string).

(** ** encoding/json indent.go appendIndent, for a valid text: [d] depth, [need] needIndent, [instr] inside a string *)
Definition newline (d : nat) : bytes := x0a :: repeat x20 (2 * d).
Fixpoint indent (s : bytes) (d : nat) (need instr : bool) : bytes :=
  match s with
  | [] => []
  | c :: s' =>
      if instr then
        if Byte.eqb c bslash then match s' with e :: s2 => c :: e :: indent s2 d need true | [] => [c] end
        else c :: indent s' d need (negb (Byte.eqb c dquote))
      else if json_space c then indent s' d need false
      else
        let closing := Byte.eqb c x7d || Byte.eqb c x5d in
        let now := need && negb closing in
        let d := if now then S d else d in
        (if now then newline d else []) ++
        (if Byte.eqb c dquote then c :: indent s' d false true
         else if Byte.eqb c x7b || Byte.eqb c x5b then c :: indent s' d true false
         else if Byte.eqb c x2c then c :: newline d ++ indent s' d false false
         else if Byte.eqb c x3a then c :: x20 :: indent s' d false false
         else if closing then (if need then c :: indent s' d false false else newline (d - 1) ++ c :: indent s' (d - 1) false false)
         else c :: indent s' d false false)
  end.

(** ** The structures. journal.go:32, 51 *)
Record job_conf := mk_jconf { cf_ingest : bool; cf_coalesce : bool; cf_smt : bool; cf_ctsize : bool; cf_batch : Z; cf_csv : bool }.
Record full_job := mk_full { fj_cwd : bytes; fj_cmd : option (list bytes) (* None: nil *); fj_conf : job_conf; fj_start : bytes; fj_end : bytes; fj_job : job }.

(** ** Writing *)
(** maps are written in the order of the bytes of their keys *)
Fixpoint key_leb (a b : bytes) : bool :=
  match a, b with
  | [], _ => true
  | _ :: _, [] => false
  | x :: a', y :: b' => if N.ltb (Byte.to_N x) (Byte.to_N y) then true else if N.ltb (Byte.to_N y) (Byte.to_N x) then false else key_leb a' b'
  end.
Fixpoint insert_key {V} (kv : bytes * V) (l : list (bytes * V)) : list (bytes * V) :=
  match l with [] => [kv] | x :: l' => if key_leb (fst kv) (fst x) then kv :: l else x :: insert_key kv l' end.
Definition sort_keys {V} (l : list (bytes * V)) : list (bytes * V) := fold_right insert_key [] l.
Definition str (s : bytes) : json := JStr (escape s).
(** journal.go:462 MarshalJSON, 487 encodeCompletedIndices *)
Definition completed_json (c : completed) : json := JObj (map (fun kv => (escape (fst kv), JArr (map (fun iv => str (show_interval iv)) (snd kv)))) (sort_keys c)).
Definition conf_json (c : job_conf) : json :=
  JObj [(b_ "IngestFiles", JBool (cf_ingest c)); (b_ "Coalesce", JBool (cf_coalesce c)); (b_ "UpdateSMT", JBool (cf_smt c)); (b_ "RecordCTSize", JBool (cf_ctsize c));
        (b_ "FileBatch", JNum (dec_Z (cf_batch c))); (b_ "IncludePlainCSVs", JBool (cf_csv c))].
Definition job_json (f : full_job) : json :=
  JObj [(b_ "Cwd", str (fj_cwd f)); (b_ "Cmd", match fj_cmd f with None => JNull | Some l => JArr (map str l) end); (b_ "JobConfiguration", conf_json (fj_conf f));
        (b_ "StartTime", str (fj_start f)); (b_ "EndTime", str (fj_end f)); (b_ "Coalesced", JBool (j_coalesced (fj_job f))); (b_ "UpdatedSMT", JBool (j_smt (fj_job f)));
        (b_ "RecordedCTLogSize", JNum (dec_Z (j_ctsize (fj_job f)))); (b_ "CompletedIndices", completed_json (j_completed (fj_job f)))].
Definition journal_json (l : list full_job) : json := JObj [(b_ "Jobs", match l with [] => JNull | _ => JArr (map job_json l) end)].
(** journal.go:322 *)
Definition journal_text (l : list full_job) : bytes := indent (print (journal_json l)) 0 false false.

(** ** Reading *)
(** journal.go:468: null and an object; a name twice: the last one counts *)
Fixpoint read_map (l : list (bytes * json)) (m : list (bytes * list bytes)) : option (list (bytes * list bytes)) :=
  match l with
  | [] => Some m
  | (k, v) :: l' => obind (unquote k) (fun name => obind (read_list read_string [] [] v) (fun x => read_map l' (set_key name x m)))
  end.
Definition read_completed (_ : completed) (v : json) : option completed :=
  match v with JNull => Some [] | JObj l => obind (read_map l []) decode_completed | _ => None end.
Definition read_cmd (old : option (list bytes)) (v : json) : option (option (list bytes)) :=
  match v with JNull => Some None | JArr l => option_map Some (read_elements read_string [] (match old with None => [] | Some o => o end) l) | _ => None end.

Definition zero_conf : job_conf := mk_jconf false false false false 0 false.
Definition zero_job : full_job := mk_full [] None zero_conf [] [] (mk_job false false 0 []).
Definition put_job (g : job -> job) (f : full_job) : full_job := mk_full (fj_cwd f) (fj_cmd f) (fj_conf f) (fj_start f) (fj_end f) (g (fj_job f)).
Definition conf_table : table job_conf :=
  [entry (b_ "IngestFiles") cf_ingest read_bool (fun x c => mk_jconf x (cf_coalesce c) (cf_smt c) (cf_ctsize c) (cf_batch c) (cf_csv c));
   entry (b_ "Coalesce") cf_coalesce read_bool (fun x c => mk_jconf (cf_ingest c) x (cf_smt c) (cf_ctsize c) (cf_batch c) (cf_csv c));
   entry (b_ "UpdateSMT") cf_smt read_bool (fun x c => mk_jconf (cf_ingest c) (cf_coalesce c) x (cf_ctsize c) (cf_batch c) (cf_csv c));
   entry (b_ "RecordCTSize") cf_ctsize read_bool (fun x c => mk_jconf (cf_ingest c) (cf_coalesce c) (cf_smt c) x (cf_batch c) (cf_csv c));
   entry (b_ "FileBatch") cf_batch read_int (fun x c => mk_jconf (cf_ingest c) (cf_coalesce c) (cf_smt c) (cf_ctsize c) x (cf_csv c));
   entry (b_ "IncludePlainCSVs") cf_csv read_bool (fun x c => mk_jconf (cf_ingest c) (cf_coalesce c) (cf_smt c) (cf_ctsize c) (cf_batch c) x)].
Definition job_table : table full_job :=
  [entry (b_ "Cwd") fj_cwd read_string (fun x f => mk_full x (fj_cmd f) (fj_conf f) (fj_start f) (fj_end f) (fj_job f));
   entry (b_ "Cmd") fj_cmd read_cmd (fun x f => mk_full (fj_cwd f) x (fj_conf f) (fj_start f) (fj_end f) (fj_job f));
   entry (b_ "JobConfiguration") fj_conf (read_struct conf_table) (fun x f => mk_full (fj_cwd f) (fj_cmd f) x (fj_start f) (fj_end f) (fj_job f));
   entry (b_ "StartTime") fj_start read_string (fun x f => mk_full (fj_cwd f) (fj_cmd f) (fj_conf f) x (fj_end f) (fj_job f));
   entry (b_ "EndTime") fj_end read_string (fun x f => mk_full (fj_cwd f) (fj_cmd f) (fj_conf f) (fj_start f) x (fj_job f));
   entry (b_ "Coalesced") (fun f => j_coalesced (fj_job f)) read_bool (fun x => put_job (fun j => mk_job x (j_smt j) (j_ctsize j) (j_completed j)));
   entry (b_ "UpdatedSMT") (fun f => j_smt (fj_job f)) read_bool (fun x => put_job (fun j => mk_job (j_coalesced j) x (j_ctsize j) (j_completed j)));
   entry (b_ "RecordedCTLogSize") (fun f => j_ctsize (fj_job f)) read_int (fun x => put_job (fun j => mk_job (j_coalesced j) (j_smt j) x (j_completed j)));
   entry (b_ "CompletedIndices") (fun f => j_completed (fj_job f)) read_completed (fun x => put_job (fun j => mk_job (j_coalesced j) (j_smt j) (j_ctsize j) x))].
Definition journal_table : table (list full_job) := [entry (b_ "Jobs") (fun l => l) (read_list (read_struct job_table) zero_job) (fun x _ => x)].
(** journal.go:382 normalize *)
Definition normalize_job (f : full_job) : option full_job :=
  obind (normalize_completed (j_completed (fj_job f))) (fun c => Some (put_job (fun j => mk_job (j_coalesced j) (j_smt j) (j_ctsize j) c) f)).
(** journal.go:396 read; None: the journal is refused *)
Definition read_journal (s : bytes) : option (list full_job) :=
  obind (parse s) (fun v => obind (read_struct journal_table [] v) (fun l => JsonModel.all_some normalize_job l)).
