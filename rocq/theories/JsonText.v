(** Model of JSON text as encoding/json (Go 1.25) writes and reads it: Marshal (compact, with escaping of HTML) and Unmarshal up to the tree of
    values; used by /repo/pkg/common/json.go. A string is kept as the text between its quotes, a number as its text, as the decoder does.
    Not modelled: the limit of 10000 on the nesting. *)
From Verif Require Import Base UtilModel.

Inductive json := JNull | JBool (b : bool) | JNum (text : bytes) | JStr (raw : bytes) | JArr (l : list json) | JObj (l : list (bytes * json)).

(** ** UTF-8, utf8.DecodeRune: a character of two to four bytes at the begin, if it is valid *)
Local Open Scope N_scope.
Definition within (lo hi : N) (b : byte) : bool := (lo <=? Byte.to_N b) && (Byte.to_N b <=? hi).
Definition cont (b : byte) : bool := within 128 191 b.
Definition two (a b : byte) : bool := within 194 223 a && cont b.
Definition three (a b c : byte) : bool :=
  (within 224 224 a && within 160 191 b || (within 225 236 a || within 238 239 a) && cont b || within 237 237 a && within 128 159 b) && cont c.
Definition four (a b c d : byte) : bool :=
  (within 240 240 a && within 144 191 b || within 241 243 a && cont b || within 244 244 a && within 128 143 b) && cont c && cont d.
Definition wide_char (s : bytes) : option (bytes * bytes) :=
  match s with
  | a :: b :: s2 =>
      if two a b then Some ([a; b], s2)
      else match s2 with
           | c :: s3 =>
               if three a b c then Some ([a; b; c], s3)
               else match s3 with
                    | d :: s4 => if four a b c d then Some ([a; b; c; d], s4) else None
                    | [] => None
                    end
           | [] => None
           end
  | _ => None
  end.
Definition ascii (c : byte) : bool := Byte.to_N c <? 128.
(** A string as single ASCII bytes, valid wide characters and invalid bytes *)
Inductive piece := Single (c : byte) | Wide (ch : bytes) | Bad (c : byte).
Fixpoint pieces_upto (fuel : nat) (s : bytes) : list piece :=
  match fuel, s with
  | S f, c :: s' =>
      if ascii c then Single c :: pieces_upto f s'
      else match wide_char s with
           | Some (ch, r) => Wide ch :: pieces_upto f r
           | None => Bad c :: pieces_upto f s'
           end
  | _, _ => []
  end.
Definition pieces (s : bytes) : list piece := pieces_upto (length s) s.
(** The replacement character U+FFFD *)
Definition replacement : bytes := [xef; xbf; xbd].
Definition valid_utf8 (s : bytes) : Prop := forall c, ~ In (Bad c) (pieces s).

(** ** Writing strings: appendString with escapeHTML *)
Definition hex_digit (n : N) : byte := if n <? 10 then digit_byte n else match Byte.of_N (87 + n) with Some b => b | None => x30 end.
Definition bslash : byte := x5c.
Definition dquote : byte := x22.
Definition esc_ascii (c : byte) : bytes :=
  if Byte.eqb c bslash || Byte.eqb c dquote then [bslash; c]
  else if Byte.eqb c x08 then [bslash; x62]
  else if Byte.eqb c x0c then [bslash; x66]
  else if Byte.eqb c x0a then [bslash; x6e]
  else if Byte.eqb c x0d then [bslash; x72]
  else if Byte.eqb c x09 then [bslash; x74]
  else if (Byte.to_N c <? 32) || Byte.eqb c x3c || Byte.eqb c x3e || Byte.eqb c x26 then
    [bslash; x75; x30; x30; hex_digit (Byte.to_N c / 16); hex_digit (Byte.to_N c mod 16)]
  else [c].
Definition line_sep : bytes := [xe2; x80; xa8].
Definition para_sep : bytes := [xe2; x80; xa9].
Definition esc_piece (p : piece) : bytes :=
  match p with
  | Single c => esc_ascii c
  | Wide ch => if beqb ch line_sep then [bslash; x75; x32; x30; x32; x38]
               else if beqb ch para_sep then [bslash; x75; x32; x30; x32; x39] else ch
  | Bad _ => [bslash; x75; x66; x66; x66; x64]
  end.
Definition escape (s : bytes) : bytes := flat_map esc_piece (pieces s).

(** ** Reading strings: unquote *)
Definition hex_value (c : byte) : option N :=
  if within 48 57 c then Some (Byte.to_N c - 48)
  else if within 97 102 c then Some (Byte.to_N c - 87)
  else if within 65 70 c then Some (Byte.to_N c - 55) else None.
(** getu4 after the backslash and u: the number and the rest *)
Definition hex4 (s : bytes) : option (N * bytes) :=
  match s with
  | a :: b :: c :: d :: r =>
      match hex_value a, hex_value b, hex_value c, hex_value d with
      | Some x, Some y, Some z, Some w => Some (x * 4096 + y * 256 + z * 16 + w, r)
      | _, _, _, _ => None
      end
  | _ => None
  end.
Definition byte_at (n : N) : byte := match Byte.of_N n with Some b => b | None => x00 end.
(** utf8.EncodeRune *)
Definition encode_rune (n : N) : bytes :=
  if n <? 128 then [byte_at n]
  else if n <? 2048 then [byte_at (192 + n / 64); byte_at (128 + n mod 64)]
  else if (55296 <=? n) && (n <? 57344) then replacement
  else if n <? 65536 then [byte_at (224 + n / 4096); byte_at (128 + n / 64 mod 64); byte_at (128 + n mod 64)]
  else [byte_at (240 + n / 262144); byte_at (128 + n / 4096 mod 64); byte_at (128 + n / 64 mod 64); byte_at (128 + n mod 64)].
Definition high_surrogate (n : N) : bool := (55296 <=? n) && (n <? 56320).
Definition low_surrogate (n : N) : bool := (56320 <=? n) && (n <? 57344).
Definition escaped_u (s : bytes) : option (N * bytes) :=
  match s with a :: b :: r => if Byte.eqb a bslash && Byte.eqb b x75 then hex4 r else None | _ => None end.
Definition simple_escape (e : byte) : option byte :=
  if Byte.eqb e dquote || Byte.eqb e bslash || Byte.eqb e x2f then Some e
  else if Byte.eqb e x62 then Some x08 else if Byte.eqb e x66 then Some x0c else if Byte.eqb e x6e then Some x0a
  else if Byte.eqb e x72 then Some x0d else if Byte.eqb e x74 then Some x09 else None.
Definition prepend (p : bytes) (o : option bytes) : option bytes := match o with None => None | Some r => Some (p ++ r) end.
Fixpoint unquote_upto (fuel : nat) (s : bytes) : option bytes :=
  match fuel, s with
  | _, [] => Some []
  | O, _ => None
  | S f, c :: s' =>
      if Byte.eqb c bslash then
        match s' with
        | [] => None
        | e :: r =>
            if Byte.eqb e x75 then
              match hex4 r with
              | None => None
              | Some (n, r1) =>
                  if high_surrogate n || low_surrogate n then
                    match escaped_u r1 with
                    | Some (m, r2) =>
                        if high_surrogate n && low_surrogate m
                        then prepend (encode_rune (65536 + (n - 55296) * 1024 + (m - 56320))) (unquote_upto f r2)
                        else prepend replacement (unquote_upto f r1)
                    | None => prepend replacement (unquote_upto f r1)
                    end
                  else prepend (encode_rune n) (unquote_upto f r1)
              end
            else match simple_escape e with None => None | Some o => prepend [o] (unquote_upto f r) end
        end
      else if Byte.eqb c dquote || (Byte.to_N c <? 32) then None
      else if ascii c then prepend [c] (unquote_upto f s')
      else match wide_char s with
           | Some (ch, r) => prepend ch (unquote_upto f r)
           | None => prepend replacement (unquote_upto f s')
           end
  end.
Definition unquote (raw : bytes) : option bytes := unquote_upto (length raw) raw.

(** ** Writing *)
Fixpoint commas (l : list bytes) : bytes :=
  match l with [] => [] | [x] => x | x :: l' => x ++ x2c :: commas l' end.
Definition quoted (raw : bytes) : bytes := dquote :: raw ++ [dquote].
Definition w_null : bytes := [x6e; x75; x6c; x6c].
Definition w_true : bytes := [x74; x72; x75; x65].
Definition w_false : bytes := [x66; x61; x6c; x73; x65].
Fixpoint print (v : json) : bytes :=
  match v with
  | JNull => w_null
  | JBool b => if b then w_true else w_false
  | JNum t => t
  | JStr raw => quoted raw
  | JArr l => x5b :: commas ((fix go l := match l with [] => [] | x :: l' => print x :: go l' end) l) ++ [x5d]
  | JObj l => x7b :: commas ((fix go l := match l with [] => [] | (k, x) :: l' => (quoted k ++ x3a :: print x) :: go l' end) l) ++ [x7d]
  end.

(** ** Reading: the scanner *)
Definition json_space (c : byte) : bool := Byte.eqb c x20 || Byte.eqb c x09 || Byte.eqb c x0d || Byte.eqb c x0a.
Fixpoint skip_space (s : bytes) : bytes := match s with c :: s' => if json_space c then skip_space s' else s | [] => [] end.
(** After the opening quote: the raw string and what follows the closing quote *)
Fixpoint scan_string (s : bytes) : option (bytes * bytes) :=
  match s with
  | [] => None
  | c :: s' =>
      if Byte.eqb c dquote then Some ([], s')
      else if Byte.eqb c bslash then
        match s' with
        | [] => None
        | e :: r =>
            if Byte.eqb e x75 then
              match r with
              | h1 :: h2 :: h3 :: h4 :: r' =>
                  match hex4 [h1; h2; h3; h4], scan_string r' with
                  | Some _, Some (raw, rest) => Some (c :: e :: h1 :: h2 :: h3 :: h4 :: raw, rest)
                  | _, _ => None
                  end
              | _ => None
              end
            else match simple_escape e, scan_string r with
                 | Some _, Some (raw, rest) => Some (c :: e :: raw, rest)
                 | _, _ => None
                 end
        end
      else if Byte.to_N c <? 32 then None
      else match scan_string s' with Some (raw, rest) => Some (c :: raw, rest) | None => None end
  end.
Fixpoint take_digits (s : bytes) : bytes * bytes :=
  match s with
  | c :: s' => if is_digit c then let (p, r) := take_digits s' in (c :: p, r) else ([], s)
  | [] => ([], [])
  end.
(** A number: sign, digits without leading zero, fraction, exponent *)
Definition scan_int (s : bytes) : option (bytes * bytes) :=
  match s with
  | c :: s' => if Byte.eqb c x30 then Some ([c], s') else if is_digit c then let (p, r) := take_digits s' in Some (c :: p, r) else None
  | [] => None
  end.
Definition scan_frac (s : bytes) : option (bytes * bytes) :=
  match s with
  | c :: s' => if Byte.eqb c x2e then match take_digits s' with ([], _) => None | (p, r) => Some (c :: p, r) end else Some ([], s)
  | [] => Some ([], s)
  end.
Definition scan_exp (s : bytes) : option (bytes * bytes) :=
  match s with
  | c :: s' =>
      if Byte.eqb c x65 || Byte.eqb c x45 then
        let '(sign, r) := match s' with g :: r => if Byte.eqb g x2b || Byte.eqb g x2d then ([g], r) else ([], s') | [] => ([], s') end in
        match take_digits r with ([], _) => None | (p, r') => Some (c :: sign ++ p, r') end
      else Some ([], s)
  | [] => Some ([], s)
  end.
Definition scan_number (s : bytes) : option (bytes * bytes) :=
  let '(sign, s1) := match s with c :: s' => if Byte.eqb c x2d then ([c], s') else ([], s) | [] => ([], s) end in
  match scan_int s1 with
  | None => None
  | Some (i, s2) =>
      match scan_frac s2 with
      | None => None
      | Some (f, s3) => match scan_exp s3 with None => None | Some (e, s4) => Some (sign ++ i ++ f ++ e, s4) end
      end
  end.
Fixpoint strip_word (w s : bytes) : option bytes :=
  match w, s with
  | [], _ => Some s
  | a :: w', b :: s' => if Byte.eqb a b then strip_word w' s' else None
  | _, [] => None
  end.
Definition with_word (w : bytes) (v : json) (s : bytes) : option (json * bytes) :=
  match strip_word w s with Some r => Some (v, r) | None => None end.

(** One value at the begin; [fuel] bounds the number of values, elements and members read *)
Fixpoint parse_value (fuel : nat) (s : bytes) : option (json * bytes) :=
  match fuel with
  | O => None
  | S f =>
      match skip_space s with
      | [] => None
      | c :: r =>
          if Byte.eqb c x7b then
            match skip_space r with
            | c2 :: r2 => if Byte.eqb c2 x7d then Some (JObj [], r2)
                          else match parse_members f r with Some (l, r3) => Some (JObj l, r3) | None => None end
            | [] => None
            end
          else if Byte.eqb c x5b then
            match skip_space r with
            | c2 :: r2 => if Byte.eqb c2 x5d then Some (JArr [], r2)
                          else match parse_elements f r with Some (l, r3) => Some (JArr l, r3) | None => None end
            | [] => None
            end
          else if Byte.eqb c dquote then match scan_string r with Some (raw, r2) => Some (JStr raw, r2) | None => None end
          else if Byte.eqb c x74 then with_word w_true (JBool true) (c :: r)
          else if Byte.eqb c x66 then with_word w_false (JBool false) (c :: r)
          else if Byte.eqb c x6e then with_word w_null JNull (c :: r)
          else match scan_number (c :: r) with Some (t, r2) => Some (JNum t, r2) | None => None end
      end
  end
with parse_elements (fuel : nat) (s : bytes) : option (list json * bytes) :=
  match fuel with
  | O => None
  | S f =>
      match parse_value f s with
      | None => None
      | Some (v, r) =>
          match skip_space r with
          | c :: r2 =>
              if Byte.eqb c x2c then match parse_elements f r2 with Some (l, r3) => Some (v :: l, r3) | None => None end
              else if Byte.eqb c x5d then Some ([v], r2) else None
          | [] => None
          end
      end
  end
with parse_members (fuel : nat) (s : bytes) : option (list (bytes * json) * bytes) :=
  match fuel with
  | O => None
  | S f =>
      match skip_space s with
      | [] => None
      | q :: s1 =>
          if Byte.eqb q dquote then
            match scan_string s1 with
            | None => None
            | Some (k, s2) =>
                match skip_space s2 with
                | [] => None
                | c :: s3 =>
                    if Byte.eqb c x3a then
                      match parse_value f s3 with
                      | None => None
                      | Some (v, r) =>
                          match skip_space r with
                          | c2 :: r2 =>
                              if Byte.eqb c2 x2c then match parse_members f r2 with Some (l, r3) => Some ((k, v) :: l, r3) | None => None end
                              else if Byte.eqb c2 x7d then Some ([(k, v)], r2) else None
                          | [] => None
                          end
                      end
                    else None
                end
            end
          else None
      end
  end.
(** The whole text is one value *)
Definition parse (s : bytes) : option json :=
  match parse_value (S (2 * length s)) s with
  | Some (v, r) => match skip_space r with [] => Some v | _ => None end
  | None => None
  end.
