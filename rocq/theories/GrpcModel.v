(** Model of the interface of the map server over gRPC: /repo/pkg/grpc/grpcserver/grpcserver.go:34 QueryMapEntries, :55 NewGRPCServer, :70 StartWork up to its
    parse of the flags, /repo/pkg/grpc/grpcclient/grpcclient.go:26 GetProofs, and the two messages of /repo/pkg/grpc/query/query.proto in the wire format of
    protobuf. The library grpc is modelled by its meaning: a message longer than the limit for received messages (4 MiB unless set; nothing sets it) is an error for
    the caller, and so is an error of the handler; a panic of the handler ends the process of the server (net/http would only close the connection).
    Connections, the time limit of 20 seconds, the state of a trie that remains between two requests and the limit for sent messages (2 GiB) are not
    modelled; groups, a kind of field which neither message has, are refused here but skipped by the library. No proofs here. *)
From Coq Require Import Strings.String.
From Verif Require Import Base UtilModel DbModel LoadModel PolicyModel JsonText JsonModel ApiText BundleModel.
From Verif Require Import TrieModel ClientModel DomainModel SmtModel ApiModel.
From Verif Require CmdModel.
Local Open Scope list_scope.
Local Notation b_ s := (list_byte_of_string s%string).
Local Open Scope bool_scope.
Local Notation length := List.length.

(** ** protobuf *)
(** protowire.AppendVarint *)
Fixpoint varint (fuel : nat) (n : N) : bytes :=
  match fuel with
  | O => []
  | S f => if (n <? 128)%N then [byte_at n] else byte_at (128 + n mod 128) :: varint f (n / 128)
  end.
Definition most_bytes : nat := 10.
(** protowire.ConsumeVarint: the tenth byte has one bit. *)
Fixpoint read_varint (fuel : nat) (s : bytes) : option (N * bytes) :=
  match fuel, s with
  | S f, c :: s' =>
      let n := Byte.to_N c in
      if (n <? 128)%N then (if (f =? 0) && (2 <=? n)%N then None else Some (n, s'))
      else match read_varint f s' with Some (v, r) => Some (n - 128 + 128 * v, r)%N | None => None end
  | _, _ => None
  end.
Definition blen (s : bytes) : N := N.of_nat (length s).
(** A field of bytes or text; an empty one is left out. *)
Definition field (num : N) (b : bytes) : bytes :=
  match b with [] => [] | _ => varint most_bytes (num * 8 + 2) ++ varint most_bytes (blen b) ++ b end.
Inductive wire := Number (n : N) | Fixed (b : bytes) | Text (b : bytes).
(** Cuts off the first [n] bytes. *)
Fixpoint cut (n : nat) (s : bytes) : option (bytes * bytes) :=
  match n, s with
  | O, _ => Some ([], s)
  | S n', c :: s' => match cut n' s' with Some (a, r) => Some (c :: a, r) | None => None end
  | S _, [] => None
  end.
(** protowire.ConsumeFieldValue for the kind [w] *)
Definition read_content (w : N) (s : bytes) : option (wire * bytes) :=
  if (w =? 0)%N then match read_varint most_bytes s with Some (n, r) => Some (Number n, r) | None => None end
  else if (w =? 1)%N then match cut 8 s with Some (a, r) => Some (Fixed a, r) | None => None end
  else if (w =? 2)%N then
    match read_varint most_bytes s with
    | Some (n, r) => if (blen r <? n)%N then None else match cut (N.to_nat n) r with Some (a, r') => Some (Text a, r') | None => None end
    | None => None
    end
  else if (w =? 5)%N then match cut 4 s with Some (a, r) => Some (Fixed a, r) | None => None end
  else None.
(** All fields; the numbers of fields go from 1 to 2^29 - 1. Every field has at least one byte. *)
Fixpoint read_fields (fuel : nat) (s : bytes) : option (list (N * wire)) :=
  match s with
  | [] => Some []
  | _ =>
      match fuel with
      | O => None
      | S f =>
          match read_varint most_bytes s with
          | None => None
          | Some (tag, r) =>
              let num := (tag / 8)%N in
              if (num <? 1)%N || (2 ^ 29 <=? num)%N then None
              else match read_content (tag mod 8) r with
                   | None => None
                   | Some (c, r') => match read_fields f r' with Some l => Some ((num, c) :: l) | None => None end
                   end
          end
      end
  end.
(** The fields [num] of bytes or text, others are unknown; the last one counts. *)
Definition texts (num : N) (l : list (N * wire)) : list bytes :=
  flat_map (fun f => match f with (n, Text b) => if (n =? num)%N then [b] else [] | _ => [] end) l.
Definition utf8 (s : bytes) : bool := forallb (fun p => match p with Bad _ => false | _ => true end) (pieces s).
Definition read_message (s : bytes) : option (list (N * wire)) := read_fields (length s) s.

(** query.proto MapClientRequest; proto.Marshal and proto.Unmarshal refuse text that is not UTF-8. *)
Definition request (name : bytes) : option bytes := if utf8 name then Some (field 1 name) else None.
Definition read_request (s : bytes) : option bytes :=
  obind (read_message s) (fun l => if forallb utf8 (texts 1 l) then Some (last (texts 1 l) []) else None).
(** MapClientReply *)
Definition reply_message (name proof : bytes) : option bytes := if utf8 name then Some (field 1 name ++ field 2 proof) else None.
Definition read_reply (s : bytes) : option (bytes * bytes) :=
  obind (read_message s) (fun l => if forallb utf8 (texts 1 l) then Some (last (texts 1 l) [], last (texts 2 l) []) else None).

(** ** The text in the reply: grpcserver.go:29 GRPCProofs, by json.Marshal and json.Unmarshal *)
Definition proofs_text (l : list answer) : bytes := print (JObj [(b_ "Proofs", JArr (map answer_json l))]).
(** An element of the list is a pointer. *)
Definition proofs_table : table (list (option answer)) :=
  [JsonModel.entry (b_ "Proofs") (fun s => s) (read_list (read_pointer answer_table zero_answer) None) (fun x _ => x)].
Definition read_proofs (text : bytes) : option (list (option answer)) := obind (parse text) (read_struct proofs_table []).

(** ** The server *)
(** grpcserver.go:55 NewGRPCServer loads the root (responder.go:40); nothing loads it again. *)
Definition opened (k : disk) : bytes := load_root k.
(** grpcserver.go:34, for the root that was loaded *)
Definition query_map_entries (H : bytes -> bytes) (psl : bytes -> bytes * bool) (root : bytes) (d : db) (k : disk) (rlimit : nat) (sig name : bytes) : res bytes :=
  match fst (get_proof psl H (fun id => H (snd (entry_of d id))) rlimit root name (new_trie k)) with
  | Ok rs => Ok (proofs_text (map (fill d sig) rs))
  | Err => Err
  | Panic => Panic
  end.
(** What the caller sees: the chain, an error, or an error because the process of the server ended. *)
Inductive outcome := Got (l : list (option answer)) | Failed | Ended.
(** The handler of the library around it; [recv]: the limit for received messages. *)
Definition handle (recv : N) (run : bytes -> res bytes) (s : bytes) : res bytes :=
  if (recv <? blen s)%N then Err
  else match read_request s with
       | None => Err
       | Some name => match run name with
                      | Ok t => match reply_message name t with Some r => Ok r | None => Err end
                      | e => e
                      end
       end.
(** grpcclient.go:26 GetProofs *)
Definition grpc_proofs (recv : N) (run : bytes -> res bytes) (name : bytes) : outcome :=
  match request name with
  | None => Failed
  | Some s =>
      match handle recv run s with
      | Err => Failed
      | Panic => Ended
      | Ok r =>
          if (recv <? blen r)%N then Failed
          else match read_reply r with
               | None => Failed
               | Some (_, t) => match read_proofs t with Some l => Got l | None => Failed end
               end
      end
  end.

(** ** The process of the caller: grpcclient.go:21 and grpcserver.go:19 register flags, :27 and :71 parse the arguments of the process. *)
Definition grpc_flags : list CmdModel.flagdef :=
  [(b_ "port", CmdModel.KInt, b_ "port"); (b_ "addr", CmdModel.KText, b_ "addr"); (b_ "name", CmdModel.KText, b_ "name")].
Inductive call := Exit (code : nat) | Return (r : outcome).
(** [more], [e]: the flags and values of the rest of the process *)
Definition get_proofs_call (more : list CmdModel.flagdef) (e : CmdModel.env) (args : list bytes) (result : outcome) : call :=
  match CmdModel.parse (grpc_flags ++ more) e args with
  | CmdModel.Bad => Exit 2
  | CmdModel.Help => Exit 0
  | CmdModel.Parsed _ _ => Return result
  end.
