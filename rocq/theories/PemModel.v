(** Model of the PEM reader and writer of certificates: /repo/pkg/util/certReader.go, certWriter.go, the functions of certificate.go and io.go
    that use them, and RSAKeyFromPEM, RSAKeyToPEM in io.go. Decode and Encode are those of encoding/pem in Go 1.25.0 (go.mod), from its
    published source; of the headers of a block only their presence is kept. X.509 parsing and the PKCS #1 form of keys are parameters.
    The reader below CertReader is any io.Reader over a text: it hands out the bytes in pieces of any size (also empty ones), with or
    without io.EOF beside the last bytes, and may fail at any call. *)
From Coq Require Import Strings.String.
From Verif Require Import Base UtilModel DbModel LoadModel.
Local Open Scope list_scope.
Local Notation b_ s := (list_byte_of_string s%string).

(** ** encoding/pem *)
Definition newline_b : byte := x0a.
Definition dash : byte := x2d.
Definition pem_begin : bytes := b_ "-----BEGIN ". (* pemStart is a newline and this *)
Definition pem_end : bytes := b_ "-----END ".     (* pemEnd is a newline and this *)
Definition dashes : bytes := b_ "-----".          (* pemEndOfLine *)

Fixpoint has_prefix (p s : bytes) : bool :=
  match p, s with [], _ => true | a :: p', b :: s' => Byte.eqb a b && has_prefix p' s' | _ :: _, [] => false end.
Definition has_suffix (p s : bytes) : bool := has_prefix (rev p) (rev s).
(** bytes.Index *)
Fixpoint index (p s : bytes) : option nat :=
  if has_prefix p s then Some 0 else match s with [] => None | _ :: s' => option_map S (index p s') end.
Fixpoint trim_right (s : bytes) : bytes :=
  match s with
  | [] => []
  | c :: s' => match trim_right s' with [] => if Byte.eqb c x20 || Byte.eqb c x09 then [] else [c] | t => c :: t end
  end.
(** getLine: without the line break and the blanks before it; what follows the line *)
Fixpoint line_end (s : bytes) : bytes * option bytes :=
  match s with
  | [] => ([], None)
  | c :: s' => if Byte.eqb c newline_b then ([], Some s') else let (l, r) := line_end s' in (c :: l, r)
  end.
Definition drop_cr (l : bytes) : bytes := match rev l with c :: r => if Byte.eqb c x0d then rev r else l | [] => l end.
Definition get_line (s : bytes) : bytes * bytes :=
  match line_end s with
  | (l, None) => (trim_right l, [])
  | (l, Some rest) => (trim_right (drop_cr l), rest)
  end.
Definition is_colon (c : byte) : bool := Byte.eqb c x3a.
(** The loop over the header lines: were there any, and the text after them; None at the end of the data *)
Fixpoint skip_headers (fuel : nat) (had : bool) (s : bytes) : option (bool * bytes) :=
  match fuel, s with
  | S f, _ :: _ => let (line, next) := get_line s in if existsb is_colon line then skip_headers f true next else Some (had, s)
  | _, _ => None
  end.
(** removeSpacesAndTabs, and the line breaks that the decoder of encoding/base64 skips *)
Definition pem_blank (c : byte) : bool := Byte.eqb c x20 || Byte.eqb c x09 || Byte.eqb c x0a || Byte.eqb c x0d.
Definition pem_base64 (s : bytes) : option bytes := b64_decode (filter (fun c => negb (pem_blank c)) s).
(** The place after the first start of a block: at the beginning of the text or of a line *)
Definition find_start (s : bytes) : option bytes :=
  if has_prefix pem_begin s then Some (skipn (length pem_begin) s)
  else match index (newline_b :: pem_begin) s with
       | Some i => Some (skipn (i + S (length pem_begin)) s)
       | None => None
       end.
(** One turn of the loop of Decode, from behind "-----BEGIN " *)
Inductive attempt := Found (type raw rest : bytes) | Again (rest : bytes) | Nothing.
Definition attempt_block (s : bytes) : attempt :=
  let (tl, rest) := get_line s in
  if negb (has_suffix dashes tl) then Again rest
  else
    let type := firstn (length tl - length dashes) tl in
    match skip_headers (S (length rest)) false rest with
    | None => Nothing
    | Some (had, rest) =>
        match (if negb had && has_prefix pem_end rest then Some (0, length pem_end)
               else option_map (fun i => (i, i + S (length pem_end))) (index (newline_b :: pem_end) rest)) with
        | None => Again rest
        | Some (ei, ti) =>
            let trailer := skipn ti rest in
            let len := length type + length dashes in
            if length trailer <? len then Again rest
            else if negb (has_prefix type (firstn len trailer) && has_suffix dashes (firstn len trailer)) then Again rest
            else match fst (get_line (skipn len trailer)) with
                 | _ :: _ => Again rest
                 | [] =>
                     match pem_base64 (firstn ei rest) with
                     | None => Again rest
                     | Some raw => Found type raw (snd (get_line (skipn (ei + length pem_end) rest)))
                     end
                 end
        end
    end.
Fixpoint decode_loop (fuel : nat) (data s : bytes) : option (bytes * bytes) * bytes :=
  match fuel with
  | O => (None, data)
  | S f =>
      match find_start s with
      | None => (None, data)
      | Some s1 =>
          match attempt_block s1 with
          | Found t raw rest => (Some (t, raw), rest)
          | Again rest => decode_loop f data rest
          | Nothing => (None, data)
          end
      end
  end.
(** pem.Decode: the first block (type and content) and what follows it; if there is none, the whole text *)
Definition pem_decode (data : bytes) : option (bytes * bytes) * bytes := decode_loop (S (length data)) data data.

(** pem.Encode without headers: lines of 64 characters *)
Fixpoint lines64 (fuel : nat) (s : bytes) : bytes :=
  match fuel, s with
  | S f, _ :: _ => firstn 64 s ++ newline_b :: lines64 f (skipn 64 s)
  | _, _ => []
  end.
Definition pem_body (raw : bytes) : bytes := let s := b64_encode raw in lines64 (length s) s.
Definition pem_encode (type raw : bytes) : bytes :=
  pem_begin ++ type ++ dashes ++ newline_b :: pem_body raw ++ pem_end ++ type ++ dashes ++ [newline_b].

(** ** io.Reader *)
Inductive answer := Take (n : nat) (eof : bool) | Broken.
Record source := mk_source { pending : bytes; answers : list answer }.
Inductive rerr := Fine | Eof | Failed.
Definition is_nil (s : bytes) : bool := match s with [] => true | _ => false end.
(** Read into [cap] bytes. After the given answers: as much as fits, and io.EOF with nothing at the end. *)
Definition source_read (cap : nat) (s : source) : bytes * rerr * source :=
  match answers s with
  | Broken :: a => ([], Failed, mk_source (pending s) a)
  | Take n e :: a =>
      let k := Nat.min n cap in
      let p := skipn k (pending s) in
      (firstn k (pending s), if e && is_nil p then Eof else Fine, mk_source p a)
  | [] => (firstn cap (pending s), if is_nil (pending s) then Eof else Fine, mk_source (skipn cap (pending s)) [])
  end.

Section Reader.
  Variable cert : Type.
  Variable parse_tbs parse_cert : bytes -> option cert.
  (** certReader.go:62-70 *)
  Definition parse (raw : bytes) : option cert := match parse_tbs raw with Some c => Some c | None => parse_cert raw end.
  Definition cert_type : bytes := b_ "CERTIFICATE".

  (** certReader.go:10 CertReader. NewCertReader makes a storage of one megabyte; here any storage. *)
  Record reader := mk_reader { src : source; storage : bytes; buff : bytes; eof_reached : bool }.
  Definition new_reader (size : nat) (s : source) : reader := mk_reader s (repeat x00 size) [] false.

  (** certReader.go:51-73, the inner loop: up to [want] certificates of the buffer *)
  Fixpoint take_blocks (fuel want : nat) (b : bytes) : option (list cert) * bytes :=
    match fuel, want with
    | S f, S w =>
        match pem_decode b with
        | (None, rest) => (Some [], rest)
        | (Some (t, raw), rest) =>
            if beqb t cert_type then
              match parse raw with
              | None => (None, rest)
              | Some c => let (r, rest') := take_blocks f w rest in (option_map (cons c) r, rest')
              end
            else take_blocks f want rest
        end
    | _, _ => (Some [], b)
    end.

  (** certReader.go:26 Read of [want] certificates; the outer None is the end of the fuel *)
  Fixpoint read_certs (fuel want : nat) (r : reader) : option (res (list cert) * reader) :=
    match want with
    | O => Some (Ok [], r)
    | S _ =>
        match fuel with
        | O => None
        | S f =>
            let n := Nat.min (length (storage r)) (length (buff r)) in
            let st := firstn n (buff r) ++ skipn n (storage r) in
            match source_read (length st - n) (src r) with
            | (d, e, s') =>
                match e with
                | Failed => Some (Err, mk_reader s' st (skipn n st) (eof_reached r))
                | _ =>
                    let st' := firstn n st ++ d ++ skipn (n + length d) st in
                    let b := firstn (n + length d) st' in
                    match d, e with
                    | [], Fine => read_certs f want (mk_reader s' (repeat x00 (2 * length st')) b (eof_reached r))
                    | _, _ =>
                        let eof := eof_reached r || is_nil d in
                        match take_blocks (S (length b)) want b with
                        | (None, rest) => Some (Err, mk_reader s' st' rest eof)
                        | (Some cs, rest) =>
                            let r' := mk_reader s' st' rest eof in
                            if eof then Some (Ok cs, r')
                            else match read_certs f (want - length cs) r' with
                                 | Some (Ok cs', r'') => Some (Ok (cs ++ cs'), r'')
                                 | x => x
                                 end
                        end
                    end
                end
            end
        end
    end.
  Definition reads_left (r : reader) : nat := length (answers (src r)) + 2 * length (pending (src r)) + 2.
  Definition cert_read (want : nat) (r : reader) : option (res (list cert) * reader) := read_certs (reads_left r) want r.
  (** Several calls of Read after each other *)
  Fixpoint cert_reads (wants : list nat) (r : reader) : option (list (res (list cert)) * reader) :=
    match wants with
    | [] => Some ([], r)
    | w :: ws => obind (cert_read w r) (fun '(x, r') => obind (cert_reads ws r') (fun '(l, r'') => Some (x :: l, r'')))
    end.
  (** certReader.go:85 ReadAll: one certificate at a time, until none comes *)
  Fixpoint read_all (fuel : nat) (r : reader) : option (res (list cert) * reader) :=
    match fuel with
    | O => None
    | S f =>
        match cert_read 1 r with
        | Some (Ok [], r') => Some (Ok [], r')
        | Some (Ok cs, r') =>
            match read_all f r' with
            | Some (Ok cs', r'') => Some (Ok (cs ++ cs'), r'')
            | x => x
            end
        | x => x
        end
    end.

  (** certWriter.go:21 Write to a writer that takes everything; [raw] is the field Raw *)
  Variable raw_of : cert -> bytes.
  Definition write_certs (cs : list cert) : bytes := concat (map (fun c => pem_encode cert_type (raw_of c)) cs).
  (** certificate.go:41 SerializeCertificates, 56 DeserializeCertificates (bytes.Reader: all that fits; [size]: the storage) *)
  Definition serialize_certs : list cert -> bytes := write_certs.
  Definition deserialize_certs (size : nat) (payload : bytes) : option (res (list cert)) :=
    option_map fst (read_all (S (length payload)) (new_reader size (mk_source payload []))).
  (** io.go:82 CertificateFromPEMBytes (and 68 CertificateFromPEMFile): the certificate, or the zero value [zero] of the array *)
  Variable zero : cert.
  Definition certificate_from_pem (size : nat) (s : source) : option (res cert) :=
    match cert_read 1 (new_reader size s) with
    | Some (Ok cs, _) => Some (Ok (hd zero cs))
    | Some (Err, _) => Some Err
    | Some (Panic, _) => Some Panic
    | None => None
    end.

  (** io.go:106 RSAKeyFromPEM, 124 RSAKeyToPEM *)
  Variable key : Type.
  Variable marshal_key : key -> bytes.
  Variable parse_key : bytes -> option key.
  Definition key_type : bytes := b_ "RSA PRIVATE KEY".
  Definition rsa_key_to_pem (k : key) : bytes := pem_encode key_type (marshal_key k).
  Definition rsa_key_from_pem (s : bytes) : res key :=
    match fst (pem_decode s) with
    | None => Panic (* the type of a nil block *)
    | Some (t, raw) => if beqb t key_type then match parse_key raw with Some k => Ok k | None => Err end else Err
    end.
End Reader.
