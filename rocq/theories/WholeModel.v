(** Model of /repo/pkg/util/io.go:158 LoadCertsAndChainsFromCSV, which reads a whole CSV file with ReadAll of encoding/csv (CsvModel.v), over UnfoldCerts
    (UtilModel.v), and :229 parseCertFromCSVField. Base64 and the parser of X.509 are parameters. No proofs here. *)
From Verif Require Import Base UtilModel BatchModel CsvModel.

(** strings.Split for a separator of one byte *)
Fixpoint split_text (b : byte) (l : bytes) : list bytes :=
  match l with
  | [] => [[]]
  | x :: l' => if Byte.eqb x b then [] :: split_text b l' else match split_text b l' with f :: fs => (x :: f) :: fs | [] => [[x]] end
  end.
Section Whole.
  Variable H : bytes -> bytes.
  Variable b64 : bytes -> option bytes.
  Variable x509 : bytes -> option cert.
  (** :229 *)
  Definition parse_field (f : bytes) : option cert := match b64 f with None => None | Some r => x509 r end.
  (** :193-201 *)
  Fixpoint parse_parts (l : list bytes) : option (list cert) :=
    match l with
    | [] => Some []
    | s :: l' => match parse_field s with None => None | Some c => match parse_parts l' with None => None | Some cs => Some (c :: cs) end end
    end.
  (** :178-203: the records one after the other; an index behind the last column panics *)
  Fixpoint record_certs (recs : list (list bytes)) : res (list (cert * list cert)) :=
    match recs with
    | [] => Ok []
    | fs :: recs' =>
        if length fs =? 0 then record_certs recs'
        else match nth_error fs CertificateColumn with
             | None => Panic
             | Some f =>
                 match parse_field f with
                 | None => Err
                 | Some c =>
                     match nth_error fs CertChainColumn with
                     | None => Panic
                     | Some g =>
                         match parse_parts (split_text semicolon g) with
                         | None => Err
                         | Some ch => match record_certs recs' with Ok l => Ok ((c, ch) :: l) | e => e end
                         end
                     end
                 end
             end
    end.
  (** None: out of fuel in ReadAll *)
  Definition load_whole (fuel : nat) (inp : bytes) : option (res (list out_row)) :=
    match csv_all fuel inp with
    | None => None
    | Some (Ok recs) => Some (match record_certs recs with Ok l => Ok (unfold_certs H l) | Err => Err | Panic => Panic end)
    | Some Err => Some Err
    | Some Panic => Some Panic
    end.
End Whole.
