(** Model of /repo/cmd/ingest/journal/list_files.go and of the file name helpers in /repo/pkg/util/csv_files.go.
    Every directory is readable. Directory names contain no glob characters, names are single-byte text. *)
From Verif Require Import Base UtilModel JournalModel.

(** csv_files.go:16 the expression ^(\d+)-(\d+).(?:gz|csv)$ and :36 filenameToIndices. The unescaped dot matches any byte but
    newline, also a digit given back by the second group. *)
Definition gz_tail : bytes := [x67; x7a].
Definition csv_tail : bytes := [x63; x73; x76].
Definition is_tail (s : bytes) : bool := beqb s gz_tail || beqb s csv_tail.
Definition match_name (f : bytes) : option (bytes * bytes) :=
  let '(a, r) := digit_prefix f in
  match a, r with
  | _ :: _, c :: r1 =>
      if Byte.eqb c x2d then
        let '(b, r2) := digit_prefix r1 in
        match b with
        | [] => None
        | _ =>
            if match r2 with c2 :: r3 => negb (Byte.eqb c2 x0a) && is_tail r3 | [] => false end then Some (a, b)
            else if is_tail r2 && (2 <=? length b) then Some (a, removelast b)
            else None
        end
      else None
  | _, _ => None
  end.
(** strconv.Atoi on digits: at most 2^63-1. *)
Definition indices (f : bytes) : option (N * N) :=
  match match_name (base_name f) with
  | None => None
  | Some (a, b) =>
      let x := dec_value a in let y := dec_value b in
      if N.ltb x (2 ^ 63) && N.ltb y (2 ^ 63) && N.leb x y then Some (x, y) else None
  end.
(** csv_files.go:18 EstimateCertCount *)
Definition estimate (f : bytes) : option N :=
  match indices f with None => None | Some (x, y) => Some (wrap64 (y - x + 1)) end.

Section Sort.
  (** slices.SortFunc by the first index: any permutation in order. *)
  Variable pdq : list (bytes * N) -> list (bytes * N).
  (** csv_files.go:65 SortByBundleName; an error leaves the slice as it is (the caller ignores it). *)
  Definition sort_by_bundle (names : list bytes) : list bytes :=
    match all_some (map (fun f => match indices f with None => None | Some (x, _) => Some (f, x) end) names) with
    | None => names
    | Some pairs => map fst (pdq pairs)
    end.

  (** Directory trees; entries in the order of os.ReadDir (by name). *)
  Inductive node := File | Dir (entries : list (bytes * node)).
  Definition is_dir (n : node) : bool := match n with File => false | Dir _ => true end.
  Definition join (d n : bytes) : bytes := d ++ x2f :: n.
  Definition bundled : bytes := [x62; x75; x6e; x64; x6c; x65; x64].
  Definition has_suffix (ext f : bytes) : bool := match strip_suffix ext f with None => false | Some _ => true end.
  Definition dot_gz : bytes := x2e :: gz_tail.
  Definition dot_csv : bytes := x2e :: csv_tail.
  (** filepath.Glob(dir/*.ext): every entry with that suffix. *)
  Definition glob (ext : bytes) (d : bytes) (es : list (bytes * node)) : list bytes :=
    map (join d) (filter (has_suffix ext) (map fst es)).

  (** list_files.go:13 ListCsvFiles *)
  Fixpoint list_files (path : bytes) (n : node) {struct n} : list bytes * list bytes :=
    match n with
    | File => ([], [])
    | Dir es =>
        let r := (fix go (l : list (bytes * node)) (gz csv : list bytes) {struct l} : list bytes * list bytes :=
          match l with
          | [] => (gz, csv)
          | (name, nd) :: l' =>
              match nd with
              | File => go l' gz csv
              | Dir sub =>
                  if beqb name bundled
                  then go l' (glob dot_gz (join path name) sub) (glob dot_csv path es)
                  else let (g, c) := list_files (join path name) nd in go l' (gz ++ g) (csv ++ c)
              end
          end) es [] [] in
        (sort_by_bundle (fst r), sort_by_bundle (snd r))
    end.
End Sort.
