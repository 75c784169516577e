(** Model of helpers for numbers, slices and types: /repo/pkg/util/math.go:7 Pow for integers, /repo/pkg/util/slice.go:49 ResizeSlice and its use in
    /repo/cmd/ingest/chainToCertWorker.go:29 (chainPtrToCertPtrWorker.go:29 is the same), /repo/pkg/util/types.go SliceToTypedSlice and ToTypedSlice, and
    /repo/pkg/util/io.go:210 LoadPoliciesFromRaw. No proofs here. *)
From Coq Require Import Strings.String.
From Verif Require Import Base UtilModel DbModel LoadModel PolicyModel JsonText JsonModel.
Local Open Scope list_scope.
Local Notation length := List.length.

(** ** math.go:7 *)
(** An integer type: its bits and whether it has a sign. The value that is kept of a result *)
Definition keep (signed : bool) (bits : Z) (z : Z) : Z :=
  if signed then ((z + 2 ^ (bits - 1)) mod 2 ^ bits - 2 ^ (bits - 1))%Z else (z mod 2 ^ bits)%Z.
(** n / 2 and n mod 2 of a positive number are the number without its last digit and that digit *)
Fixpoint pow_positive (signed : bool) (bits x : Z) (n : positive) : Z :=
  match n with
  | xH => x
  | xO h => let y := pow_positive signed bits x h in keep signed bits (y * y)
  | xI h => let y := pow_positive signed bits x h in keep signed bits (keep signed bits (x * y) * y)
  end.
Definition pow (signed : bool) (bits x : Z) (n : BinNums.N) : Z := match n with N0 => 1%Z | Npos p => pow_positive signed bits x p end.

(** ** Slices: arrays in memory; a slice is a part of one *)
Section Slices.
  Context {T : Type}.
  Definition memory : Type := list (list T).
  Record part : Type := mk_part { p_array : nat; p_first : nat; p_len : nat; p_cap : nat }.
  Definition array_of (m : memory) (a : nat) : list T := nth a m [].
  Definition content_of (m : memory) (s : part) : list T := firstn (p_len s) (skipn (p_first s) (array_of m (p_array s))).
  Fixpoint put (l : list T) (i : nat) (x : list T) : list T :=
    match i, l with
    | O, _ => x ++ skipn (length x) l
    | S j, e :: l' => e :: put l' j x
    | S _, [] => []
    end.
  Fixpoint set_array (m : memory) (a : nat) (x : list T) : memory :=
    match m, a with [], _ => [] | _ :: m', O => x :: m' | y :: m', S b => y :: set_array m' b x end.
  Variable zero : T.
  (** append (the runtime chooses the capacity of a new array: [more] beyond the length) *)
  Definition append_to (more : nat) (m : memory) (s : part) (x : list T) : memory * part :=
    let n := p_len s + length x in
    if n <=? p_cap s then (set_array m (p_array s) (put (array_of m (p_array s)) (p_first s + p_len s) x), mk_part (p_array s) (p_first s) n (p_cap s))
    else (m ++ [content_of m s ++ x ++ repeat zero more], mk_part (length m) 0 n (n + more)).
  (** The loop of line 53 *)
  Fixpoint fill_loop (count i : nat) (fill : T) (s : part) (m : memory) : memory :=
    match count with
    | O => m
    | S c => fill_loop c (S i) fill s (set_array m (p_array s) (put (array_of m (p_array s)) (p_first s + i) [fill]))
    end.
  (** slice.go:49. Slicing beyond the capacity cannot happen here; a negative length panics. *)
  Definition resize (more : nat) (m : memory) (s : part) (len : Z) (fill : T) : res (memory * part) :=
    let L := p_len s in
    if (Z.of_nat L <? len)%Z then
      let n := Z.to_nat len in
      let (m', s') := append_to more m s (repeat zero (n - L)) in
      Ok (fill_loop (n - L) L fill s' m', s')
    else if (len <? 0)%Z then Panic
    else Ok (m, mk_part (p_array s) (p_first s) (Z.to_nat len) (p_cap s)).
  (** Slices as the language keeps them *)
  Definition fits (m : memory) (s : part) : Prop :=
    p_len s <= p_cap s /\ p_array s < length m /\ p_first s + p_cap s <= length (array_of m (p_array s)).
End Slices.
Arguments memory T : clear implicits.
(** chainToCertWorker.go:25: for the chains that arrive one after the other, by the number of their certificates, the slice of channel numbers that is returned.
    [mores]: the choices of the runtime *)
Fixpoint channels (calls : list (nat * nat)) (m : memory nat) (s : part) : res (memory nat * list part) :=
  match calls with
  | [] => Ok (m, [])
  | (n, more) :: calls' =>
      match resize 0 more m s (Z.of_nat n) 0 with
      | Ok (m', s') => match channels calls' m' s' with Ok (m'', l) => Ok (m'', s' :: l) | e => e end
      | Err => Err
      | Panic => Panic
      end
  end.
(** The nil slice, as a slice of an array of no elements *)
Definition nil_part : part := mk_part 0 0 0 0.

(** ** types.go. [conv]: the type assertion *)
Section Types.
  Context {A T : Type}.
  Variable conv : A -> option T.
  (** :32 *)
  Fixpoint typed_slice (s : list A) : list T * list A :=
    match s with
    | [] => ([], [])
    | e :: s' => let (f, r) := typed_slice s' in match conv e with Some t => (t :: f, r) | None => (f, e :: r) end
    end.
  (** :16; [slice]: the assertion that the object is a slice *)
  Definition to_typed_slice (slice : option (list A)) : res (list T) :=
    match slice with
    | None => Err
    | Some s => match typed_slice s with (t, []) => Ok t | _ => Err end
    end.
End Types.
(** common/policies.go:13: the types with all methods of PolicyDocument are the signing request, the certificate and the revocation, and pointers to them.
    (Nil pointers are left out; FromJSON makes none.) *)
Definition as_document (o : object) : option object :=
  match o with
  | OReq _ | OCert _ | ORev _ | OPtr (Some (OReq _ | OCert _ | ORev _)) => Some o
  | _ => None
  end.
Definition as_slice (o : object) : option (list object) := match o with OSlice l => Some l | _ => None end.
(** io.go:210. None: out of fuel in FromJSON *)
Definition load_policies (zs : zones) (text : bytes) : option (res (list object)) :=
  match from_text zs false text with
  | None => None
  | Some (Ok o) => Some (to_typed_slice as_document (as_slice o))
  | Some Err => Some Err
  | Some Panic => Some Panic
  end.
