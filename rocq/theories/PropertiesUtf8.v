(** C72: the strings in the JSON text, in terms of code points. *)
From Coq Require Import Strings.String.
From Verif Require Import Base BaseLemmas UtilModel JsonText JsonTextProofs JsonModel Utf8Proofs.
Local Open Scope list_scope.
Local Open Scope N_scope.
Local Notation b_ s := (list_byte_of_string s%string).

(** [char n bs]: the code point n, no surrogate, has the bytes bs by RFC 3629. The strings that survive in C72 are the sequences of such characters. *)
Theorem C72_utf8 s : valid_utf8 s <-> exists l cs, Forall2 char l cs /\ s = concat cs.
Proof. exact (utf8_iff s). Qed.
Theorem C72_utf8_unique n m bs r bs' r' : char n bs -> char m bs' -> bs ++ r = bs' ++ r' -> n = m /\ bs = bs' /\ r = r'.
Proof. exact (char_inj n m bs r bs' r'). Qed.
(** Every scalar value has bytes. *)
Theorem C72_utf8_all n : (exists bs, char n bs) <-> n < 55296 \/ 57344 <= n < 1114112.
Proof. split; [intros [bs C]; exact (char_scalar n bs C)|intros H; exists (encode_rune n); now apply encode_char]. Qed.
Example C72_utf8_example : char 8364 [xe2; x82; xac] /\ char 128512 [xf0; x9f; x98; x80] /\ (forall n, ~ char n [xed; xa0; x80]) /\ (forall n, ~ char n [xc0; x80]).
Proof.
  split; [exact (encode_char 8364 ltac:(unfold scalar; lia))|]. split; [exact (encode_char 128512 ltac:(unfold scalar; lia))|].
  assert (N : forall n bs, wide_char (bs ++ []) = None -> (forall a, bs <> [a]) -> ~ char n bs).
  { intros n bs W L C. destruct (char_wide n bs C) as [(a & -> & _)|X]; [exact (L a eq_refl)|]. rewrite X in W. discriminate. }
  split; intros n; apply N; try reflexivity; discriminate.
Qed.
(** A string in JSON is read as its characters: plain ones, short escapes, four hex digits, pairs of them for code points after U+FFFF. *)
Theorem C72_strings l raws values : Forall2 jchar l raws -> Forall2 char l values -> unquote (concat raws) = Some (concat values).
Proof. exact (read_string_chars l raws values). Qed.
(** Nothing else is read, but for bytes that are not UTF-8 and halves of a pair, each of which becomes U+FFFD. *)
Theorem C72_strings_only raw v : unquote raw = Some v -> exists l raws values,
  Forall2 (fun n r => jchar n r \/ n = 65533 /\ lossy r) l raws /\ Forall2 char l values /\ raw = concat raws /\ v = concat values.
Proof. exact (string_read raw v). Qed.
Example C72_strings_example :
  unquote (b_ "a\u20aC\uD83d\uDE00\/\n") = Some (x61 :: [xe2; x82; xac] ++ [xf0; x9f; x98; x80] ++ [x2f; x0a]) /\
  unquote (b_ "\ud83dx") = Some (replacement ++ [x78]) /\ map unquote [b_ "\u12g4"; b_ "\x"; b_ "\"; [x22]; [x09]] = repeat None 5.
Proof. repeat split; vm_compute; reflexivity. Qed.
(** Written: each character as it is or, if it has to be, escaped in the one way that Marshal uses; a byte that begins no character as the escape of U+FFFD. *)
Theorem C72_written_strings l cs : Forall2 char l cs -> exists ws, Forall2 written l ws /\ escape (concat cs) = concat ws.
Proof. exact (write_string l cs). Qed.
Theorem C72_written_bad s1 c s2 : valid_utf8 s1 -> (forall n bs r, c :: s2 = bs ++ r -> ~ char n bs) ->
  escape (s1 ++ c :: s2) = escape s1 ++ [x5c; x75; x66; x66; x66; x64] ++ escape s2.
Proof. exact (no_char_written s1 c s2). Qed.
Example C72_written_example : escape ([x61; x0a; x01; x7f; x3c; x22] ++ [xe2; x80; xa8] ++ [xc3; xa9; xed; xa0]) =
  b_ "a\n\u0001" ++ [x7f] ++ b_ "\u003c\""\u2028" ++ [xc3; xa9] ++ b_ "\ufffd\ufffd".
Proof. vm_compute. reflexivity. Qed.
(** Names of members are compared letter by letter without case; the long s and the Kelvin sign are an s and a k. *)
Theorem C72_names n x : forallb (fun c => Byte.to_N c <? 128) n = true -> (fold_name x = fold_name n <-> exists bs, Forall2 alike n bs /\ x = concat bs).
Proof. exact (names_iff n x). Qed.
Example C72_names_example : fold_name (b_ "doMAINname") = fold_name (b_ "DomainName") /\ fold_name ([xe2; x84; xaa] ++ b_ "EY" ++ [xc5; xbf]) = fold_name (b_ "Keys") /\
  fold_name (b_ "Domain_Name") <> fold_name (b_ "DomainName").
Proof. repeat split; vm_compute; try reflexivity. discriminate. Qed.
Print Assumptions C72_utf8.
Print Assumptions C72_utf8_unique.
Print Assumptions C72_utf8_all.
Print Assumptions C72_strings.
Print Assumptions C72_strings_only.
Print Assumptions C72_written_strings.
Print Assumptions C72_written_bad.
Print Assumptions C72_names.
