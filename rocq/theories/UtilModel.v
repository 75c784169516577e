(** Model of the helper functions in /repo/pkg/util and /repo/pkg/common/ids.go. Slices are lists; element access [l[i]] is
    [nth i l d] with an arbitrary default, index ranges are part of the theorems. *)
From Verif Require Import Base.

(** ** util/slice.go, util/sort.go *)
Section Slices.
  Context {A : Type}.
  Variable d : A.

  Definition swap (i j : nat) (l : list A) : list A :=
    set_nth j (nth i l d) (set_nth i (nth j l d) l).

  (** slice.go:6 RemoveElemFromSlice *)
  Definition remove_elem (l : list A) (index : nat) : list A :=
    let n := length l - 1 in firstn n (set_nth index (nth n l d) l).

  (** sort.go:10 Qsort. The random numbers are an arbitrary stream [rnd], read at [cnt]; [None] is "out of fuel". *)
  Variable ltb : A -> A -> bool.

  (** sort.go:24-29: [n] iterations left, next index [i]. *)
  Fixpoint part_loop (n i left right : nat) (a : list A) : list A * nat :=
    match n with
    | O => (a, left)
    | S n' =>
        if ltb (nth i a d) (nth right a d)
        then part_loop n' (S i) (S left) right (swap i left a)
        else part_loop n' (S i) left right a
    end.

  Fixpoint qsort (rnd : nat -> nat) (fuel cnt : nat) (a : list A) : option (list A * nat) :=
    if length a <? 2 then Some (a, cnt) else
    match fuel with
    | O => None
    | S fuel' =>
        let right := length a - 1 in
        let a1 := swap (rnd cnt mod length a) right a in
        let (a2, left) := part_loop (length a) 0 0 right a1 in
        let a3 := swap left right a2 in
        match qsort rnd fuel' (S cnt) (firstn left a3) with
        | None => None
        | Some (lo, cnt1) =>
            match qsort rnd fuel' cnt1 (skipn (S left) a3) with
            | None => None
            | Some (hi, cnt2) => Some (lo ++ nth left a3 d :: hi, cnt2)
            end
        end
    end.
End Slices.

(** slice.go:16 RemoveElementsFromSlice, after the indices are sorted. Go ints are Z: j may become -1. *)
Section RemoveElements.
  Context {A : Type}.
  Variable d : A.
  Definition znth (z : Z) (l : list nat) : Z := Z.of_nat (nth (Z.to_nat z) l 0).

  (** slice.go:34-40 *)
  Fixpoint find_stay (fuel : nat) (idx : list nat) (i j t : Z) : Z * Z :=
    match fuel with
    | O => (j, t)
    | S fuel' =>
        if Z.ltb j i then (j, t)
        else if Z.ltb (znth j idx) t then (j, t)
        else find_stay fuel' idx i (j - 1) (t - 1)
    end.
  (** slice.go:31-45 *)
  Fixpoint remove_loop (fuel : nat) (idx : list nat) (i j t : Z) (l : list A) : list A :=
    match fuel with
    | O => l
    | S fuel' =>
        if Z.leb i j && Z.ltb i (Z.of_nat (length l) - Z.of_nat (length idx)) then
          let (j', t') := find_stay (S (length idx)) idx i j t in
          let l' := set_nth (Z.to_nat (znth i idx)) (nth (Z.to_nat t') l d) l in
          remove_loop fuel' idx (i + 1) j' (t' - 1) l'
        else l
    end.
  (** [sorted] stands for Qsort(indices). *)
  Definition remove_elements (sorted : list nat) (l : list A) : list A :=
    if length l <=? length sorted then []
    else
      let j := (Z.of_nat (length sorted) - 1)%Z in
      let t := (Z.of_nat (length l) - Z.of_nat (length sorted) + j)%Z in
      firstn (length l - length sorted) (remove_loop (length l) sorted 0 j t l).
  (** With the sort (slice.go:21, Qsort on ints); [None] cannot happen, see the theorem. *)
  Definition remove_elements_from_slice (rnd : nat -> nat) (idx : list nat) (l : list A) : option (list A) :=
    match qsort 0 Nat.ltb rnd (length idx) 0 idx with
    | None => None
    | Some (sorted, _) => Some (remove_elements sorted l)
    end.
End RemoveElements.

(** ** util/deduplicateSlice.go: makeUnique (line 77). [cols] are the slices, all of one length; [val] is the value function,
    applied to row [i] of the slices. The slices keep their length until the end, [n] is the master's length. *)
Section Dedup.
  Context {A T : Type}.
  Variable d : A.
  Variable eqb : T -> T -> bool.
  Variable val : list A -> T.

  Definition row (i : nat) (cols : list (list A)) : list A := map (fun c => nth i c d) cols.
  Definition copy_elem (to from : nat) (cols : list (list A)) : list (list A) :=
    map (fun c => set_nth to (nth from c d) c) cols.

  (** Lines 97-118. *)
  Fixpoint unique_loop (fuel i n : nat) (seen : list T) (cols : list (list A)) : nat * list (list A) :=
    match fuel with
    | O => (n, cols)
    | S fuel' =>
        if n <=? i then (n, cols)
        else
          let e := val (row i cols) in
          if existsb (eqb e) seen
          then unique_loop fuel' i (n - 1) seen (copy_elem i (n - 1) cols)
          else unique_loop fuel' (S i) n (e :: seen) cols
    end.
  Definition make_unique (cols : list (list A)) : list (list A) :=
    let n := length (hd [] cols) in
    if n =? 0 then cols
    else
      let (n', cols') := unique_loop n 1 n [val (row 0 cols)] cols in
      map (firstn n') cols'.
End Dedup.

(** ** util/errors.go. An error value is nil, a CoalescedErrors (its list may hold nils) or any other error, given by its message. *)
Inductive error :=
| Plain (msg : bytes)
| Coalesced (errs : list (option error)).

Definition msg_of (e : error) : bytes := match e with Plain m => m | Coalesced _ => [] end.

(** errors.go:54 addError; [acc] is e.Errs, which only ever holds plain errors, so Error() is the message. *)
Fixpoint add_error (acc : list bytes) (e : error) {struct e} : list bytes :=
  match e with
  | Plain m => if existsb (beqb m) acc then acc else acc ++ [m]
  | Coalesced errs =>
      (fix go (acc : list bytes) (l : list (option error)) : list bytes :=
         match l with
         | [] => acc
         | None :: l' => go acc l'
         | Some e' :: l' => go (add_error acc e') l'
         end) acc errs
  end.
(** errors.go:15 ErrorsCoalesce *)
Definition errors_coalesce (errs : list (option error)) : option (list bytes) :=
  match fold_left (fun acc e => match e with None => acc | Some e' => add_error acc e' end) errs [] with
  | [] => None
  | l => Some l
  end.

(** ** util/duration.go *)
Definition int64_wrap (z : Z) : Z := ((z + 2 ^ 63) mod 2 ^ 64 - 2 ^ 63)%Z.
Definition in_int64 (z : Z) : Prop := (- 2 ^ 63 <= z < 2 ^ 63)%Z.

Inductive unit_name := Uy | Uw | Ud | Uh | Um | Us | Ums | Uus | Uns.
Definition unit_bytes (u : unit_name) : bytes :=
  match u with
  | Uy => [x79] | Uw => [x77] | Ud => [x64] | Uh => [x68] | Um => [x6d] | Us => [x73]
  | Ums => [x6d; x73] | Uus => [x75; x73] | Uns => [x6e; x73]
  end.
Definition unit_ns (u : unit_name) : Z :=
  match u with
  | Uy => 3600000000000 * 24 * 365 | Uw => 3600000000000 * 24 * 7 | Ud => 3600000000000 * 24
  | Uh => 3600000000000 | Um => 60000000000 | Us => 1000000000 | Ums => 1000000 | Uus => 1000 | Uns => 1
  end%Z.

(** Decimal digits, most significant first, as fmt %d prints them. *)
Definition digit_byte (n : N) : byte := match Byte.of_N (48 + n) with Some b => b | None => x30 end.
Fixpoint digits_rev (fuel : nat) (n : N) : bytes :=
  match fuel with
  | O => []
  | S f => digit_byte (n mod 10) :: (if N.ltb n 10 then [] else digits_rev f (n / 10))
  end.
Definition dec_N (n : N) : bytes := rev (digits_rev (S (N.to_nat (N.log2 n))) n).
Definition dec_Z (z : Z) : bytes := if Z.ltb z 0 then x2d :: dec_N (Z.to_N (- z)) else dec_N (Z.to_N z).

(** duration.go:77 FmtDuration. Go's % is [Z.rem], / is [Z.quot]. *)
Definition fmt_duration (ns : Z) : bytes :=
  if Z.eqb ns 0 then [x30; x73] else
  let div u := Z.eqb (Z.rem ns (unit_ns u)) 0 in
  let u := if div Uy then Uy else if div Uw then Uw else if div Ud then Ud else if div Uh then Uh
           else if div Um then Um else if div Us then Us else if div Ums then Ums else if div Uus then Uus else Uns in
  dec_Z (Z.quot ns (unit_ns u)) ++ unit_bytes u.

(** strconv.Atoi on strings of digits and '-' (the only ones the regular expression passes): malformed gives 0, out of range gives
    the nearest int64. The error is dropped by the caller (duration.go:49). *)
Definition is_digit (b : byte) : bool := N.leb 48 (Byte.to_N b) && N.leb (Byte.to_N b) 57.
Definition dec_value (s : bytes) : N := fold_left (fun acc b => acc * 10 + (Byte.to_N b - 48))%N s 0%N.
Definition clamp64 (z : Z) : Z := Z.max (- 2 ^ 63) (Z.min z (2 ^ 63 - 1)).
Definition atoi_value (s : bytes) : Z :=
  match s with
  | [] => 0
  | c :: s' =>
      if Byte.eqb c x2d then
        match s' with
        | [] => 0
        | _ => if forallb is_digit s' then clamp64 (- Z.of_N (dec_value s')) else 0
        end
      else if forallb is_digit s then clamp64 (Z.of_N (dec_value s)) else 0
  end%Z.

(** duration.go:33: ^([\-0-9]+)(y|w|d|h|m|s|ms|us|µs|ns)$: the longest prefix of digits and dashes, then exactly a unit. *)
Fixpoint number_prefix (s : bytes) : bytes * bytes :=
  match s with
  | [] => ([], [])
  | c :: s' =>
      if is_digit c || Byte.eqb c x2d then let (p, r) := number_prefix s' in (c :: p, r) else ([], s)
  end.
Definition parse_unit (s : bytes) : option unit_name :=
  if beqb s [xc2; xb5; x73] then Some Uus
  else find (fun u => beqb s (unit_bytes u)) [Uy; Uw; Ud; Uh; Um; Us; Ums; Uus; Uns].
(** duration.go:43 ParseDuration; multiplication of durations wraps around. *)
Definition parse_duration (s : bytes) : option Z :=
  let (p, r) := number_prefix s in
  match p, parse_unit r with
  | _ :: _, Some u => Some (int64_wrap (atoi_value p * unit_ns u))
  | _, _ => None
  end.

(** ** util/time_wrap.go:91 NextTimeOfDay. Instants are nanoseconds since some UTC midnight; [off] is the offset of the local
    zone (time.Now() is local), [tod] the nanoseconds of day, [t0] the instant of the wrapped time (year 0 when parsed). *)
Definition day_ns : Z := (24 * 3600000000000)%Z.
Definition next_time_of_day (t0 tod now off : Z) : Z :=
  if Z.leb now t0 then t0
  else
    let next := ((now + off) / day_ns * day_ns + tod)%Z in
    if Z.leb now next then next else (next + day_ns)%Z.

(** ** common/ids.go. A slice is (array, length, capacity) over a heap of arrays: [append] to a slice without spare capacity
    moves to a new array. *)
Definition IDSize : nat := 32.
(** sort.Slice with bytes.Compare: stands for any sorted permutation (unique, as equal ids are identical). *)
Fixpoint insert_id (x : bytes) (l : list bytes) : list bytes :=
  match l with
  | [] => [x]
  | y :: l' => match bcmp x y with Gt => y :: insert_id x l' | _ => x :: l end
  end.
Fixpoint sort_ids (l : list bytes) : list bytes :=
  match l with [] => [] | x :: l' => insert_id x (sort_ids l') end.

(** ids.go:20 IDsToBytes *)
Definition ids_to_bytes (ids : list bytes) : bytes := concat ids.
(** ids.go:11 BytesToIDs: len/32 blocks *)
Fixpoint take_ids (n : nat) (b : bytes) : list bytes :=
  match n with
  | O => []
  | S n' => firstn IDSize b :: take_ids n' (skipn IDSize b)
  end.
Definition bytes_to_ids (b : bytes) : list bytes := take_ids (length b / IDSize) b.

Record slice := mk_slice { sl_arr : nat; sl_len : nat; sl_cap : nat }.
Definition heap := list (list bytes).
Definition sl_get (h : heap) (s : slice) : list bytes := firstn (sl_len s) (nth (sl_arr s) h []).
(** append(s, xs...): in place if the capacity suffices, else into a new array. *)
Definition sl_append (h : heap) (s : slice) (xs : list bytes) : heap * slice :=
  if sl_len s + length xs <=? sl_cap s then
    (set_nth (sl_arr s) (firstn (sl_len s) (nth (sl_arr s) h []) ++ xs ++ skipn (sl_len s + length xs) (nth (sl_arr s) h [])) h,
     mk_slice (sl_arr s) (sl_len s + length xs) (sl_cap s))
  else
    (h ++ [sl_get h s ++ xs], mk_slice (length h) (sl_len s + length xs) (sl_len s + length xs)).
Definition sl_sort (h : heap) (s : slice) : heap :=
  set_nth (sl_arr s) (sort_ids (sl_get h s) ++ skipn (sl_len s) (nth (sl_arr s) h [])) h.
(** ids.go:32 SortIDsAndGlue: ids := append(IDs[:0:0], IDs...); sort; glue. *)
Definition sort_ids_and_glue (h : heap) (s : slice) : heap * bytes :=
  let (h1, s1) := sl_append h (mk_slice (sl_arr s) 0 0) (sl_get h s) in
  let h2 := sl_sort h1 s1 in
  (h2, ids_to_bytes (sl_get h2 s1)).
(** ids.go:43 SortIDsAndHash: nil for the empty list. *)
Definition sort_ids_and_hash (H : bytes -> bytes) (h : heap) (s : slice) : heap * bytes :=
  match sl_get h s with
  | [] => (h, [])
  | _ => let (h', b) := sort_ids_and_glue h s in (h', H b)
  end.

(** ** util/certificate.go. A certificate is its raw bytes and the names ExtractCertDomains gives. *)
Record cert := mk_cert { raw : bytes; cert_names : list bytes }.
(** One output row: certificate, id, parent id, names (nil is []). *)
Definition out_row : Type := cert * bytes * option bytes * option (list bytes).

Section Unfold.
  Variable H : bytes -> bytes.

  (** certificate.go:73 UnfoldCerts, one round (lines 95-119): rows and pending certificates. *)
  Definition unfold_row (first : bool) (c : cert) (chain : list cert) : out_row :=
    (c, H (raw c), match chain with [] => None | p :: _ => Some (H (raw p)) end,
     if first then Some (cert_names c) else None).
  Definition pending (l : list (cert * list cert)) : list (cert * list cert) :=
    flat_map (fun cc => match snd cc with [] => [] | p :: rest => [(p, rest)] end) l.
  Fixpoint unfold_rounds (fuel : nat) (first : bool) (l : list (cert * list cert)) : list out_row :=
    match fuel with
    | O => []
    | S f =>
        match l with
        | [] => []
        | _ => map (fun cc => unfold_row first (fst cc) (snd cc)) l ++ unfold_rounds f false (pending l)
        end
    end.
  (** The number of rounds is one more than the longest chain. *)
  Definition unfold_certs (l : list (cert * list cert)) : list out_row :=
    unfold_rounds (S (fold_right Nat.max 0 (map (fun cc => length (snd cc)) l))) true l.

  (** certificate.go:128 UnfoldCert. [chain]: certificate or nil (already in the database), with its id; index out of range panics. *)
  Fixpoint unfold_parents (l : list (option cert * bytes)) : list out_row :=
    match l with
    | [] => []
    | (None, _) :: _ => []
    | (Some c, id) :: rest =>
        (c, id, match rest with [] => None | (_, pid) :: _ => Some pid end, None) :: unfold_parents rest
    end.
  Definition unfold_cert (leaf : cert) (id : bytes) (chain : list (option cert * bytes)) : res (list out_row) :=
    match chain with
    | [] => Panic
    | (_, pid) :: _ => Ok ((leaf, id, Some pid, Some (cert_names leaf)) :: unfold_parents chain)
    end.
End Unfold.
