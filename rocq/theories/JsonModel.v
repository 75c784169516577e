(** Model of /repo/pkg/common/json.go: the JSON text of policy objects, in both directions, over JsonText.
    Not modelled: trillian.Proof and LogRootV1; times that are no RFC 3339 text (the decoder accepts
    some, here they are errors); what a repeated array leaves in the unused capacity of the slice; files. *)
From Coq Require Import Strings.String.
From Verif Require Import Base UtilModel DbModel LoadModel PolicyModel JsonText.
Local Open Scope list_scope.
Local Notation b_ s := (list_byte_of_string s%string).

(** Assignments to the fields of the structures *)
Definition with_f_raw x (s : fields) : fields := mk_fields x (f_version s) (f_serial s) (f_domain s) (f_not_before s) (f_not_after s) (f_can_issue s) (f_can_own s) (f_key s) (f_key_alg s) (f_sig_alg s) (f_stamp s) (f_attr s) (f_owner_sig s) (f_owner_hash s).
Definition with_f_version x (s : fields) : fields := mk_fields (f_raw s) x (f_serial s) (f_domain s) (f_not_before s) (f_not_after s) (f_can_issue s) (f_can_own s) (f_key s) (f_key_alg s) (f_sig_alg s) (f_stamp s) (f_attr s) (f_owner_sig s) (f_owner_hash s).
Definition with_f_serial x (s : fields) : fields := mk_fields (f_raw s) (f_version s) x (f_domain s) (f_not_before s) (f_not_after s) (f_can_issue s) (f_can_own s) (f_key s) (f_key_alg s) (f_sig_alg s) (f_stamp s) (f_attr s) (f_owner_sig s) (f_owner_hash s).
Definition with_f_domain x (s : fields) : fields := mk_fields (f_raw s) (f_version s) (f_serial s) x (f_not_before s) (f_not_after s) (f_can_issue s) (f_can_own s) (f_key s) (f_key_alg s) (f_sig_alg s) (f_stamp s) (f_attr s) (f_owner_sig s) (f_owner_hash s).
Definition with_f_not_before x (s : fields) : fields := mk_fields (f_raw s) (f_version s) (f_serial s) (f_domain s) x (f_not_after s) (f_can_issue s) (f_can_own s) (f_key s) (f_key_alg s) (f_sig_alg s) (f_stamp s) (f_attr s) (f_owner_sig s) (f_owner_hash s).
Definition with_f_not_after x (s : fields) : fields := mk_fields (f_raw s) (f_version s) (f_serial s) (f_domain s) (f_not_before s) x (f_can_issue s) (f_can_own s) (f_key s) (f_key_alg s) (f_sig_alg s) (f_stamp s) (f_attr s) (f_owner_sig s) (f_owner_hash s).
Definition with_f_can_issue x (s : fields) : fields := mk_fields (f_raw s) (f_version s) (f_serial s) (f_domain s) (f_not_before s) (f_not_after s) x (f_can_own s) (f_key s) (f_key_alg s) (f_sig_alg s) (f_stamp s) (f_attr s) (f_owner_sig s) (f_owner_hash s).
Definition with_f_can_own x (s : fields) : fields := mk_fields (f_raw s) (f_version s) (f_serial s) (f_domain s) (f_not_before s) (f_not_after s) (f_can_issue s) x (f_key s) (f_key_alg s) (f_sig_alg s) (f_stamp s) (f_attr s) (f_owner_sig s) (f_owner_hash s).
Definition with_f_key x (s : fields) : fields := mk_fields (f_raw s) (f_version s) (f_serial s) (f_domain s) (f_not_before s) (f_not_after s) (f_can_issue s) (f_can_own s) x (f_key_alg s) (f_sig_alg s) (f_stamp s) (f_attr s) (f_owner_sig s) (f_owner_hash s).
Definition with_f_key_alg x (s : fields) : fields := mk_fields (f_raw s) (f_version s) (f_serial s) (f_domain s) (f_not_before s) (f_not_after s) (f_can_issue s) (f_can_own s) (f_key s) x (f_sig_alg s) (f_stamp s) (f_attr s) (f_owner_sig s) (f_owner_hash s).
Definition with_f_sig_alg x (s : fields) : fields := mk_fields (f_raw s) (f_version s) (f_serial s) (f_domain s) (f_not_before s) (f_not_after s) (f_can_issue s) (f_can_own s) (f_key s) (f_key_alg s) x (f_stamp s) (f_attr s) (f_owner_sig s) (f_owner_hash s).
Definition with_f_stamp x (s : fields) : fields := mk_fields (f_raw s) (f_version s) (f_serial s) (f_domain s) (f_not_before s) (f_not_after s) (f_can_issue s) (f_can_own s) (f_key s) (f_key_alg s) (f_sig_alg s) x (f_attr s) (f_owner_sig s) (f_owner_hash s).
Definition with_f_attr x (s : fields) : fields := mk_fields (f_raw s) (f_version s) (f_serial s) (f_domain s) (f_not_before s) (f_not_after s) (f_can_issue s) (f_can_own s) (f_key s) (f_key_alg s) (f_sig_alg s) (f_stamp s) x (f_owner_sig s) (f_owner_hash s).
Definition with_f_owner_sig x (s : fields) : fields := mk_fields (f_raw s) (f_version s) (f_serial s) (f_domain s) (f_not_before s) (f_not_after s) (f_can_issue s) (f_can_own s) (f_key s) (f_key_alg s) (f_sig_alg s) (f_stamp s) (f_attr s) x (f_owner_hash s).
Definition with_f_owner_hash x (s : fields) : fields := mk_fields (f_raw s) (f_version s) (f_serial s) (f_domain s) (f_not_before s) (f_not_after s) (f_can_issue s) (f_can_own s) (f_key s) (f_key_alg s) (f_sig_alg s) (f_stamp s) (f_attr s) (f_owner_sig s) x.
Definition with_a_cas x (s : attributes) : attributes := mk_attr x (a_allowed s) (a_disallowed s) (a_excluded s).
Definition with_a_allowed x (s : attributes) : attributes := mk_attr (a_cas s) x (a_disallowed s) (a_excluded s).
Definition with_a_disallowed x (s : attributes) : attributes := mk_attr (a_cas s) (a_allowed s) x (a_excluded s).
Definition with_a_excluded x (s : attributes) : attributes := mk_attr (a_cas s) (a_allowed s) (a_disallowed s) x.
Definition with_ts_raw x (s : timestamp) : timestamp := mk_ts x (ts_version s) (ts_log s) (ts_added s) (ts_sig s).
Definition with_ts_version x (s : timestamp) : timestamp := mk_ts (ts_raw s) x (ts_log s) (ts_added s) (ts_sig s).
Definition with_ts_log x (s : timestamp) : timestamp := mk_ts (ts_raw s) (ts_version s) x (ts_added s) (ts_sig s).
Definition with_ts_added x (s : timestamp) : timestamp := mk_ts (ts_raw s) (ts_version s) (ts_log s) x (ts_sig s).
Definition with_ts_sig x (s : timestamp) : timestamp := mk_ts (ts_raw s) (ts_version s) (ts_log s) (ts_added s) x.
Definition with_c_fields x (s : cert) : cert := mk_cert x (c_issuer_sig s) (c_issuer_hash s) (c_spcts s).
Definition with_c_issuer_sig x (s : cert) : cert := mk_cert (c_fields s) x (c_issuer_hash s) (c_spcts s).
Definition with_c_issuer_hash x (s : cert) : cert := mk_cert (c_fields s) (c_issuer_sig s) x (c_spcts s).
Definition with_c_spcts x (s : cert) : cert := mk_cert (c_fields s) (c_issuer_sig s) (c_issuer_hash s) x.
Definition with_r_raw x (s : revocation) : revocation := mk_rev x (r_version s) (r_serial s) (r_domain s) (r_stamp s) (r_owner_sig s) (r_owner_hash s) (r_issuer_sig s) (r_issuer_hash s) (r_spcrts s).
Definition with_r_version x (s : revocation) : revocation := mk_rev (r_raw s) x (r_serial s) (r_domain s) (r_stamp s) (r_owner_sig s) (r_owner_hash s) (r_issuer_sig s) (r_issuer_hash s) (r_spcrts s).
Definition with_r_serial x (s : revocation) : revocation := mk_rev (r_raw s) (r_version s) x (r_domain s) (r_stamp s) (r_owner_sig s) (r_owner_hash s) (r_issuer_sig s) (r_issuer_hash s) (r_spcrts s).
Definition with_r_domain x (s : revocation) : revocation := mk_rev (r_raw s) (r_version s) (r_serial s) x (r_stamp s) (r_owner_sig s) (r_owner_hash s) (r_issuer_sig s) (r_issuer_hash s) (r_spcrts s).
Definition with_r_stamp x (s : revocation) : revocation := mk_rev (r_raw s) (r_version s) (r_serial s) (r_domain s) x (r_owner_sig s) (r_owner_hash s) (r_issuer_sig s) (r_issuer_hash s) (r_spcrts s).
Definition with_r_owner_sig x (s : revocation) : revocation := mk_rev (r_raw s) (r_version s) (r_serial s) (r_domain s) (r_stamp s) x (r_owner_hash s) (r_issuer_sig s) (r_issuer_hash s) (r_spcrts s).
Definition with_r_owner_hash x (s : revocation) : revocation := mk_rev (r_raw s) (r_version s) (r_serial s) (r_domain s) (r_stamp s) (r_owner_sig s) x (r_issuer_sig s) (r_issuer_hash s) (r_spcrts s).
Definition with_r_issuer_sig x (s : revocation) : revocation := mk_rev (r_raw s) (r_version s) (r_serial s) (r_domain s) (r_stamp s) (r_owner_sig s) (r_owner_hash s) x (r_issuer_hash s) (r_spcrts s).
Definition with_r_issuer_hash x (s : revocation) : revocation := mk_rev (r_raw s) (r_version s) (r_serial s) (r_domain s) (r_stamp s) (r_owner_sig s) (r_owner_hash s) (r_issuer_sig s) x (r_spcrts s).
Definition with_r_spcrts x (s : revocation) : revocation := mk_rev (r_raw s) (r_version s) (r_serial s) (r_domain s) (r_stamp s) (r_owner_sig s) (r_owner_hash s) (r_issuer_sig s) (r_issuer_hash s) x.

(** ** Reading values. encoding/json decodes into the variable; null leaves it as it is, or makes a slice nil. None: an error. *)
Definition int_of (t : bytes) : option Z :=
  let digits (d : bytes) := match d with [] => None | _ => if forallb is_digit d then Some (Z.of_N (dec_value d)) else None end in
  match t with
  | c :: d => if Byte.eqb c x2d then obind (digits d) (fun z => Some (- z)%Z) else digits t
  | [] => None
  end.
Definition int64 (z : Z) : bool := (Z.leb (- 2 ^ 63) z && Z.ltb z (2 ^ 63))%Z.
Definition read_int (old : Z) (v : json) : option Z :=
  match v with JNull => Some old | JNum t => obind (int_of t) (fun z => if int64 z then Some z else None) | _ => None end.
Definition read_bool (old : bool) (v : json) : option bool :=
  match v with JNull => Some old | JBool b => Some b | _ => None end.
Definition read_string (old : bytes) (v : json) : option bytes :=
  match v with JNull => Some old | JStr raw => unquote raw | _ => None end.
(** base64.StdEncoding ignores line breaks *)
Definition line_break (c : byte) : bool := Byte.eqb c x0a || Byte.eqb c x0d.
Fixpoint read_elements {A} (read : A -> json -> option A) (zero : A) (old : list A) (l : list json) : option (list A) :=
  match l with
  | [] => Some []
  | v :: l' => obind (read (hd zero old) v) (fun x => obind (read_elements read zero (tl old) l') (fun r => Some (x :: r)))
  end.
Definition read_byte (old : byte) (v : json) : option byte :=
  match v with
  | JNull => Some old
  | JNum t => if forallb is_digit t && (dec_value t <? 256)%N then Some (byte_at (dec_value t)) else None
  | _ => None
  end.
(** Also an array of numbers is read into a slice of bytes. *)
Definition read_slice (old : slice) (v : json) : option slice :=
  match v with
  | JNull => Some None
  | JStr raw => obind (unquote raw) (fun s => obind (b64_decode (filter (fun c => negb (line_break c)) s)) (fun b => Some (Some b)))
  | JArr l => option_map Some (read_elements read_byte x00 (content old) l)
  | _ => None
  end.
Definition read_list {A} (read : A -> json -> option A) (zero : A) (old : list A) (v : json) : option (list A) :=
  match v with JNull => Some [] | JArr l => read_elements read zero old l | _ => None end.
(** The name of a member: the letters are compared without case; the Kelvin sign counts as K and the long s as S. *)
Fixpoint fold_name (s : bytes) : bytes :=
  match s with
  | [] => []
  | c :: s' =>
      let lower := within 97 122 c in
      match s' with
      | d :: s2 =>
          if Byte.eqb c xc5 && Byte.eqb d xbf then x53 :: fold_name s2
          else match s2 with
               | e :: s3 => if Byte.eqb c xe2 && Byte.eqb d x84 && Byte.eqb e xaa then x4b :: fold_name s3
                            else (if lower then byte_at (Byte.to_N c - 32) else c) :: fold_name s'
               | [] => (if lower then byte_at (Byte.to_N c - 32) else c) :: fold_name s'
               end
      | [] => [if lower then byte_at (Byte.to_N c - 32) else c]
      end
  end.
(** A structure: its members by name and how each is read into it *)
Definition table S := list (bytes * (json -> S -> option S)).
Fixpoint entry_of {S} (name : bytes) (t : table S) : option (json -> S -> option S) :=
  match t with [] => None | (n, f) :: t' => if beqb (fold_name n) (fold_name name) then Some f else entry_of name t' end.
Fixpoint read_members {S} (t : table S) (l : list (bytes * json)) (s : S) : option S :=
  match l with
  | [] => Some s
  | (k, v) :: l' =>
      obind (unquote k) (fun name =>
      obind (match entry_of name t with Some f => f v s | None => Some s end) (fun s' => read_members t l' s'))
  end.
Definition read_struct {S} (t : table S) (old : S) (v : json) : option S :=
  match v with JNull => Some old | JObj l => read_members t l old | _ => None end.
Definition entry {S A} (name : bytes) (get : S -> A) (read : A -> json -> option A) (put : A -> S -> S) : bytes * (json -> S -> option S) :=
  (name, fun v s => option_map (fun x => put x s) (read (get s) v)).

(** ** Writing members. The option omitempty drops zero, empty strings, false and empty slices, but no structures and times. *)
Definition int_member (name : bytes) (z : Z) : list (bytes * json) := if Z.eqb z 0 then [] else [(name, JNum (dec_Z z))].
Definition string_member (name : bytes) (s : bytes) : list (bytes * json) := match s with [] => [] | _ => [(name, JStr (escape s))] end.
Definition bool_member (name : bytes) (b : bool) : list (bytes * json) := if b then [(name, JBool true)] else [].
Definition slice_member (name : bytes) (s : slice) : list (bytes * json) := match content s with [] => [] | b => [(name, JStr (b64_encode b))] end.
Definition list_member (name : bytes) (l : list json) : list (bytes * json) := match l with [] => [] | _ => [(name, JArr l)] end.
Definition strings (l : list bytes) : list json := map (fun s => JStr (escape s)) l.
Fixpoint all_some {A B} (f : A -> option B) (l : list A) : option (list B) :=
  match l with [] => Some [] | x :: l' => obind (f x) (fun y => obind (all_some f l') (fun r => Some (y :: r))) end.

(** ** Times. [zone loc ns]: the offset of the location from UTC at the instant, in seconds. Reading sets the location UTC, or one with the offset. *)
Record zones := mk_zones { zone : nat -> Z -> Z; utc : nat; with_offset : Z -> Z -> nat }.
Definition giga : Z := 1000000000%Z.
Fixpoint drop_zeros (s : bytes) : bytes := match s with c :: s' => if Byte.eqb c x30 then drop_zeros s' else s | [] => [] end.
Definition fraction (n : Z) : bytes := if Z.eqb n 0 then [] else x2e :: rev (drop_zeros (rev (pad_digits 9 n))).
Local Open Scope Z_scope.
Definition offset_text (off : Z) : bytes :=
  if off =? 0 then [x5a]
  else let m := Z.quot off 60 in (if m <? 0 then x2d else x2b) :: pad_digits 2 (Z.abs m / 60) ++ x3a :: pad_digits 2 (Z.abs m mod 60).
(** Time.MarshalJSON, appendStrictRFC3339; without the quotes. None: the year has not four digits, or the offset is a day or more. *)
Definition time_text (zs : zones) (t : time) : option bytes :=
  let off := zone zs (t_loc t) (t_ns t) in
  let local := t_ns t + off * giga in
  let secs := local / giga in
  let '(y, m, d) := civil_of_days (secs / 86400) in
  let s := secs mod 86400 in
  if (y <? 0) || (9999 <? y) || (24 <=? Z.abs (Z.quot off 60) / 60) then None
  else Some (pad_digits 4 y ++ x2d :: pad_digits 2 m ++ x2d :: pad_digits 2 d ++ x54 ::
             pad_digits 2 (s / 3600) ++ x3a :: pad_digits 2 (s / 60 mod 60) ++ x3a :: pad_digits 2 (s mod 60) ++
             fraction (local mod giga) ++ offset_text off).
Definition read_fraction (s : bytes) : Z * bytes :=
  match s with
  | c :: (d :: _) as s' =>
      if Byte.eqb c x2e && is_digit d then
        let (p, r) := take_digits s' in
        let q := firstn 9 p in (Z.of_N (dec_value q) * 10 ^ Z.of_nat (9 - length q), r)
      else (0, s)
  | _ => (0, s)
  end.
Definition read_offset (s : bytes) : option (option Z) :=
  if beqb s [x5a] then Some None
  else match s with
       | c :: s1 =>
           obind (take_number 2 s1) (fun '(h, s2) => obind (take_char x3a s2) (fun s3 => obind (take_number 2 s3) (fun '(m, s4) =>
             if (h <? 24) && (m <? 60) && beqb s4 [] then
               if Byte.eqb c x2b then Some (Some ((h * 60 + m) * 60)) else if Byte.eqb c x2d then Some (Some (- ((h * 60 + m) * 60))) else None
             else None)))
       | [] => None
       end.
(** parseRFC3339 *)
Definition read_rfc3339 (zs : zones) (s : bytes) : option time :=
  obind (take_number 4 s) (fun '(y, s) => obind (take_char x2d s) (fun s =>
  obind (take_number 2 s) (fun '(m, s) => obind (take_char x2d s) (fun s =>
  obind (take_number 2 s) (fun '(d, s) => obind (take_char x54 s) (fun s =>
  obind (take_number 2 s) (fun '(hh, s) => obind (take_char x3a s) (fun s =>
  obind (take_number 2 s) (fun '(mm, s) => obind (take_char x3a s) (fun s =>
  obind (take_number 2 s) (fun '(ss, s) =>
    let '(frac, s) := read_fraction s in
    obind (read_offset s) (fun off =>
      if (1 <=? m) && (m <=? 12) && (1 <=? d) && (d <=? month_days y m) && (hh <? 24) && (mm <? 60) && (ss <? 60) then
        let local := (days_of_civil y m d * 86400 + hh * 3600 + mm * 60 + ss) * giga + frac in
        Some (match off with
              | None => mk_time local None (utc zs)
              | Some o => let ns := local - o * giga in mk_time ns None (with_offset zs o ns)
              end)
      else None)))))))))))).
(** Time.UnmarshalJSON gets the text, escapes are not resolved *)
Definition read_time (zs : zones) (old : time) (v : json) : option time :=
  match v with JNull => Some old | JStr raw => read_rfc3339 zs raw | _ => None end.
(** time.Time{} is the begin of the year 1 *)
Definition zero_time (zs : zones) : time := mk_time (-62135596800 * giga) None (utc zs).
Local Close Scope Z_scope.

(** ** The structures *)
Section Structures.
  Variable zs : zones.
  Definition time_member (name : bytes) (t : time) : option (list (bytes * json)) := option_map (fun x => [(name, JStr x)]) (time_text zs t).
  (** policies.go:88 *)
  Definition attr_json (a : attributes) : json :=
    JObj (list_member (b_ "AllowedCAs") (strings (a_cas a)) ++ list_member (b_ "AllowedSubdomains") (strings (a_allowed a)) ++
          list_member (b_ "DisallowedSubdomains") (strings (a_disallowed a)) ++ list_member (b_ "ExcludedSubdomains") (strings (a_excluded a))).
  Definition zero_attr : attributes := mk_attr [] [] [] [].
  Definition read_strings := read_list read_string [].
  Definition attr_table : table attributes :=
    [entry (b_ "AllowedCAs") a_cas read_strings with_a_cas; entry (b_ "AllowedSubdomains") a_allowed read_strings with_a_allowed;
     entry (b_ "DisallowedSubdomains") a_disallowed read_strings with_a_disallowed;
     entry (b_ "ExcludedSubdomains") a_excluded read_strings with_a_excluded].
  (** policies.go:48 with :19 and policy_common.go:43 *)
  Definition fields_members (f : fields) : option (list (bytes * json)) :=
    obind (time_member (b_ "NotBefore") (f_not_before f)) (fun nb => obind (time_member (b_ "NotAfter") (f_not_after f)) (fun na =>
    obind (time_member (b_ "TimeStamp") (f_stamp f)) (fun ts => Some (
      int_member (b_ "Version") (f_version f) ++ int_member (b_ "SerialNumber") (f_serial f) ++ string_member (b_ "Domain") (f_domain f) ++
      nb ++ na ++ bool_member (b_ "CanIssue") (f_can_issue f) ++ bool_member (b_ "CanOwn") (f_can_own f) ++
      slice_member (b_ "PublicKey") (f_key f) ++ int_member (b_ "PublicKeyAlgorithm") (f_key_alg f) ++
      int_member (b_ "SignatureAlgorithm") (f_sig_alg f) ++ ts ++ [(b_ "PolicyAttributes", attr_json (f_attr f))] ++
      slice_member (b_ "OwnerSignature") (f_owner_sig f) ++ slice_member (b_ "OwnerHash") (f_owner_hash f))))).
  Definition zero_fields : fields :=
    mk_fields None 0 0 [] (zero_time zs) (zero_time zs) false false None 0 0 (zero_time zs) zero_attr None None.
  Definition fields_table : table fields :=
    [entry (b_ "Version") f_version read_int with_f_version; entry (b_ "SerialNumber") f_serial read_int with_f_serial;
     entry (b_ "Domain") f_domain read_string with_f_domain; entry (b_ "NotBefore") f_not_before (read_time zs) with_f_not_before;
     entry (b_ "NotAfter") f_not_after (read_time zs) with_f_not_after; entry (b_ "CanIssue") f_can_issue read_bool with_f_can_issue;
     entry (b_ "CanOwn") f_can_own read_bool with_f_can_own; entry (b_ "PublicKey") f_key read_slice with_f_key;
     entry (b_ "PublicKeyAlgorithm") f_key_alg read_int with_f_key_alg; entry (b_ "SignatureAlgorithm") f_sig_alg read_int with_f_sig_alg;
     entry (b_ "TimeStamp") f_stamp (read_time zs) with_f_stamp; entry (b_ "PolicyAttributes") f_attr (read_struct attr_table) with_f_attr;
     entry (b_ "OwnerSignature") f_owner_sig read_slice with_f_owner_sig; entry (b_ "OwnerHash") f_owner_hash read_slice with_f_owner_hash].
  (** embedded_policies.go:17 *)
  Definition ts_members (t : timestamp) : option (list (bytes * json)) :=
    obind (time_member (b_ "AddedTS") (ts_added t)) (fun a => Some (
      int_member (b_ "Version") (ts_version t) ++ slice_member (b_ "LogID") (ts_log t) ++ a ++ slice_member (b_ "Signature") (ts_sig t))).
  Definition ts_json (t : timestamp) : option json := option_map JObj (ts_members t).
  Definition zero_ts : timestamp := mk_ts None 0 None (zero_time zs) None.
  Definition ts_table : table timestamp :=
    [entry (b_ "Version") ts_version read_int with_ts_version; entry (b_ "LogID") ts_log read_slice with_ts_log;
     entry (b_ "AddedTS") ts_added (read_time zs) with_ts_added; entry (b_ "Signature") ts_sig read_slice with_ts_sig].
  Definition read_stamps := read_list (read_struct ts_table) zero_ts.
  (** policies.go:77: the members of the embedded structure are members of the outer one. *)
  Definition embedded {S T} (get : S -> T) (put : T -> S -> S) (t : table T) : table S :=
    map (fun e => (fst e, fun v s => option_map (fun x => put x s) (snd e v (get s)))) t.
  Definition cert_members (c : cert) : option (list (bytes * json)) :=
    obind (fields_members (c_fields c)) (fun f => obind (all_some ts_json (c_spcts c)) (fun l => Some (
      f ++ slice_member (b_ "IssuerSignature") (c_issuer_sig c) ++ slice_member (b_ "IssuerHash") (c_issuer_hash c) ++ list_member (b_ "SPCTs") l))).
  Definition zero_cert : cert := mk_cert zero_fields None None [].
  Definition cert_table : table cert :=
    embedded c_fields with_c_fields fields_table ++
    [entry (b_ "IssuerSignature") c_issuer_sig read_slice with_c_issuer_sig; entry (b_ "IssuerHash") c_issuer_hash read_slice with_c_issuer_hash;
     entry (b_ "SPCTs") c_spcts read_stamps with_c_spcts].
  (** policies.go:114 and :121 *)
  Definition rev_members (r : revocation) : option (list (bytes * json)) :=
    obind (time_member (b_ "TimeStamp") (r_stamp r)) (fun ts => obind (all_some ts_json (r_spcrts r)) (fun l => Some (
      int_member (b_ "Version") (r_version r) ++ int_member (b_ "SerialNumber") (r_serial r) ++ string_member (b_ "Domain") (r_domain r) ++ ts ++
      slice_member (b_ "OwnerSignature") (r_owner_sig r) ++ slice_member (b_ "OwnerHash") (r_owner_hash r) ++
      slice_member (b_ "IssuerSignature") (r_issuer_sig r) ++ slice_member (b_ "IssuerHash") (r_issuer_hash r) ++ list_member (b_ "SPCRTs") l))).
  Definition zero_rev : revocation := mk_rev None 0 0 [] (zero_time zs) None None None None [].
  Definition rev_table : table revocation :=
    [entry (b_ "Version") r_version read_int with_r_version; entry (b_ "SerialNumber") r_serial read_int with_r_serial;
     entry (b_ "Domain") r_domain read_string with_r_domain; entry (b_ "TimeStamp") r_stamp (read_time zs) with_r_stamp;
     entry (b_ "OwnerSignature") r_owner_sig read_slice with_r_owner_sig; entry (b_ "OwnerHash") r_owner_hash read_slice with_r_owner_hash;
     entry (b_ "IssuerSignature") r_issuer_sig read_slice with_r_issuer_sig; entry (b_ "IssuerHash") r_issuer_hash read_slice with_r_issuer_hash;
     entry (b_ "SPCRTs") r_spcrts read_stamps with_r_spcrts].
  (** policy_issuance.go:21 *)
  Definition rev_request_members (h : slice) : list (bytes * json) := slice_member (b_ "PolicyCertificateHash") h.
  Definition rev_request_table : table slice := [entry (b_ "PolicyCertificateHash") (fun h => h) read_slice (fun x _ => x)].
  (** embedded_policies.go:67; the entry is written also if it is empty. *)
  Definition sig_members (t : timestamp) (e : slice) : option (list (bytes * json)) :=
    obind (ts_members t) (fun l => Some (l ++ [(b_ "Entry", match e with None => JNull | Some b => JStr (b64_encode b) end)])).
  Definition sig_table : table (timestamp * slice) :=
    embedded fst (fun x s => (x, snd s)) ts_table ++ [entry (b_ "Entry") snd read_slice (fun x s => (fst s, x))].
End Structures.

(** ** json.go *)
(** What an any holds: nil, the structures, a slice, a pointer (None: nil). *)
Inductive object :=
| ONil | OReq (f : fields) | OCert (c : cert) | OSpct (t : timestamp) | ORevReq (h : slice) | ORev (r : revocation) | OSpcrt (t : timestamp)
| OSig (t : timestamp) (e : slice) | OSlice (l : list object) | OPtr (o : option object).
Section Json.
  Variable zs : zones.
  Definition tag (t : bytes) (m : option (list (bytes * json))) : res (bytes * json) :=
    match m with None => Err | Some l => Ok (t, JObj l) end.
  (** json.go:54 MarshalJSON of the pair *)
  Definition wrap (p : bytes * json) : json := JObj [(b_ "T", JStr (escape (fst p))); (b_ "O", snd p)].
  (** json.go:73 marshalJSON *)
  Fixpoint marshal (o : object) : res (bytes * json) :=
    match o with
    | OReq f => tag (b_ "pcsr") (fields_members zs f)
    | OCert c => tag (b_ "pc") (cert_members zs c)
    | OSpct t => tag (b_ "spct") (ts_members zs t)
    | ORevReq h => tag (b_ "pcrevsr") (Some (rev_request_members h))
    | ORev r => tag (b_ "pcrev") (rev_members zs r)
    | OSpcrt t => tag (b_ "spcrevt") (ts_members zs t)
    | OSig t e => tag (b_ "spctsiginput") (sig_members zs t e)
    | OPtr (Some x) => match marshal x with Ok (t, v) => Ok (x2a :: t, v) | e => e end
    | OPtr None => Panic
    | OSlice l =>
        match (fix children (l : list object) : res (list json) :=
                 match l with
                 | [] => Ok []
                 | x :: l' =>
                     match marshal x with
                     | Ok p => match children l' with Ok r => Ok (wrap p :: r) | e => e end
                     | Err => Err
                     | Panic => Panic
                     end
                 end) l with
        | Ok r => Ok (b_ "[]", JArr r)
        | Err => Err
        | Panic => Panic
        end
    | ONil => Err
    end.
  (** json.go:19 ToJSON *)
  Definition to_text (o : object) : res bytes :=
    match marshal o with Ok p => Ok (print (wrap p)) | Err => Err | Panic => Panic end.

  (** Decoding into json.RawMessage: the texts of the members of an object, and of the elements of an array *)
  Definition taken (s r : bytes) : bytes := firstn (length s - length r) s.
  Fixpoint member_texts (fuel : nat) (s : bytes) : option (list (bytes * (bytes * json))) :=
    match fuel with
    | O => None
    | S f =>
        match skip_space s with
        | q :: s1 =>
            if Byte.eqb q dquote then
              obind (scan_string s1) (fun '(k, s2) =>
              match skip_space s2 with
              | c :: s3 =>
                  if Byte.eqb c x3a then
                    let s4 := skip_space s3 in
                    obind (parse_value (S (2 * length s4)) s4) (fun '(v, r) =>
                    match skip_space r with
                    | c2 :: r2 =>
                        if Byte.eqb c2 x2c then obind (member_texts f r2) (fun l => Some ((k, (taken s4 r, v)) :: l))
                        else Some [(k, (taken s4 r, v))]
                    | [] => None
                    end)
                  else None
              | [] => None
              end)
            else Some []
        | [] => None
        end
    end.
  Fixpoint element_texts (fuel : nat) (s : bytes) : option (list bytes) :=
    match fuel with
    | O => None
    | S f =>
        let s4 := skip_space s in
        match parse_value (S (2 * length s4)) s4 with
        | None => Some []
        | Some (_, r) =>
            match skip_space r with
            | c2 :: r2 => if Byte.eqb c2 x2c then obind (element_texts f r2) (fun l => Some (taken s4 r :: l)) else Some [taken s4 r]
            | [] => None
            end
        end
    end.
  Definition raw_members (text : bytes) : option (list (bytes * (bytes * json))) :=
    match parse text with
    | Some JNull => Some []
    | Some (JObj _) => member_texts (length text) (tl (skip_space text))
    | _ => None
    end.
  Definition raw_elements (text : bytes) : option (list bytes) :=
    match parse text with
    | Some JNull => Some []
    | Some (JArr _) => element_texts (length text) (tl (skip_space text))
    | _ => None
    end.
  (** json.go:116: T and the text of O *)
  Fixpoint read_pair (l : list (bytes * (bytes * json))) (p : bytes * option bytes) : option (bytes * option bytes) :=
    match l with
    | [] => Some p
    | (k, (text, v)) :: l' =>
        obind (unquote k) (fun name =>
        if beqb (fold_name name) (b_ "T") then obind (read_string (fst p) v) (fun t => read_pair l' (t, snd p))
        else if beqb (fold_name name) (b_ "O") then read_pair l' (fst p, Some text)
        else read_pair l' p)
    end.
  (** json.go:180 unmarshalTypeObject, for the structures. Ok None: the tag is none of them. *)
  Definition inflate {S} (t : table S) (zero : S) (make : S -> object) (v : json) : res (option object) :=
    match read_struct t zero v with Some s => Ok (Some (make s)) | None => Err end.
  Definition structure (T : bytes) (v : json) : res (option object) :=
    if beqb T (b_ "pcsr") then inflate (fields_table zs) (zero_fields zs) OReq v
    else if beqb T (b_ "pc") then inflate (cert_table zs) (zero_cert zs) OCert v
    else if beqb T (b_ "pcrevsr") then inflate rev_request_table None ORevReq v
    else if beqb T (b_ "pcrev") then inflate (rev_table zs) (zero_rev zs) ORev v
    else if beqb T (b_ "spct") then inflate (ts_table zs) (zero_ts zs) OSpct v
    else if beqb T (b_ "spcrevt") then inflate (ts_table zs) (zero_ts zs) OSpcrt v
    else if beqb T (b_ "spctsiginput") then inflate (sig_table zs) (zero_ts zs, None) (fun p => OSig (fst p) (snd p)) v
    else Ok None.
  (** json.go:142: JSONField is set in the structures that have one. *)
  Definition set_raw (x : bytes) (o : object) : object :=
    match o with
    | OReq f => OReq (with_f_raw (Some x) f)
    | OCert c => OCert (with_c_fields (with_f_raw (Some x) (c_fields c)) c)
    | OSpct t => OSpct (with_ts_raw (Some x) t)
    | ORev r => ORev (with_r_raw (Some x) r)
    | OSpcrt t => OSpcrt (with_ts_raw (Some x) t)
    | OSig t e => OSig (with_ts_raw (Some x) t) e
    | _ => o
    end.
  (** The text of a value without the space around it *)
  Definition trim (text : bytes) : bytes := rev (skip_space (rev (skip_space text))).
  (** json.go:115 UnmarshalJSON. None: out of fuel. *)
  Fixpoint from_text_upto (fuel : nat) (skip : bool) (text : bytes) : option (res object) :=
    match fuel with
    | O => None
    | S f =>
        match obind (raw_members text) (fun l => read_pair l ([], None)) with
        | Some (T, Some ot) =>
            let slice (_ : unit) : option (res object) :=
              match raw_elements ot with
              | None => Some Err
              | Some l =>
                  (fix go (l : list bytes) (acc : list object) : option (res object) :=
                     match l with
                     | [] => Some (Ok (OSlice (rev acc)))
                     | x :: l' => match from_text_upto f skip x with Some (Ok o) => go l' (o :: acc) | e => e end
                     end) l []
              end in
            let copy (o : object) := if skip then o else set_raw (trim text) o in
            match parse ot with
            | None => Some Err
            | Some v =>
                if beqb T (b_ "[]") then slice tt
                else match structure T v with
                     | Ok (Some o) => Some (Ok (copy o))
                     | Ok None =>
                         match T with
                         | c :: T' =>
                             if Byte.eqb c x2a then
                               if beqb T' (b_ "[]") then
                                 match slice tt with Some (Ok o) => Some (Ok (OPtr (Some o))) | e => e end
                               else match structure T' v with
                                    | Ok (Some o) => Some (Ok (OPtr (Some (copy o))))
                                    | _ => Some Err
                                    end
                             else Some Err
                         | [] => Some Err
                         end
                     | _ => Some Err
                     end
            end
        | _ => Some Err
        end
    end.
  (** json.go:28 FromJSON; [skip]: with the option WithSkipCopyJSONIntoPolicyObjects *)
  Definition from_text (skip : bool) (text : bytes) : option (res object) := from_text_upto (S (length text)) skip text.
  (** json.go:245 JsonFileToPolicyCert, on the text of the file *)
  Definition file_cert (text : bytes) : option (res cert) :=
    match from_text false text with
    | None => None
    | Some (Ok (OPtr (Some (OCert c)))) => Some (Ok c)
    | Some Panic => Some Panic
    | Some _ => Some Err
    end.
  (** policy_common.go:26 rawTemplate, the method Raw of the five documents. The input of a signature inherits a Raw that panics; the others have none. *)
  Definition json_field (o : object) : slice :=
    match o with
    | OReq f => f_raw f | OCert c => f_raw (c_fields c) | OSpct t => ts_raw t | ORev r => r_raw r | OSpcrt t => ts_raw t | OSig t _ => ts_raw t
    | _ => None
    end.
  Definition raw_of (o : object) : res bytes :=
    match o with
    | OReq _ | OCert _ | OSpct _ | ORev _ | OSpcrt _ => match json_field o with None => to_text (OPtr (Some o)) | Some b => Ok b end
    | OSig _ _ => Panic
    | _ => Err
    end.
End Json.
