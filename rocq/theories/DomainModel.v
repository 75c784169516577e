(** Model of /repo/pkg/domain/domain.go (IsValidDomain, SplitE2LD, removeWildCardAndWWW, ParseDomainName),
    /repo/pkg/util/domain.go and the loop of /repo/pkg/mapserver/responder/responder.go:63 GetProof over the parts of a name.
    The public suffix list (golang.org/x/net/publicsuffix) is a function [psl] from a name to its public suffix and whether the rule
    is in the ICANN section; [rules_psl] is such a function for any list of rules. Strings are bytes. No proofs here. *)
From Verif Require Import Base TrieModel ClientModel.

Definition dot : byte := x2e.
Definition star : byte := x2a.
Definition hyphen : byte := x2d.

(** strings.Split(s, ".") and its inverse *)
Fixpoint labels (s : bytes) : list bytes :=
  match s with
  | [] => [[]]
  | c :: s' =>
      if Byte.eqb c dot then [] :: labels s'
      else match labels s' with [] => [[c]] | p :: r => (c :: p) :: r end
  end.
Fixpoint join (ls : list bytes) : bytes :=
  match ls with
  | [] => []
  | [l] => l
  | l :: r => l ++ dot :: join r
  end.

(** [[:alnum:]] is ASCII. *)
Definition is_alnum (c : byte) : bool :=
  let n := Byte.to_N c in
  (N.leb 48 n && N.leb n 57) || (N.leb 65 n && N.leb n 90) || (N.leb 97 n && N.leb n 122).
(** domain.go:43: ^(\*\.)?[^*]*$ *)
Definition no_star (s : bytes) : bool := forallb (fun c => negb (Byte.eqb c star)) s.
Definition viable (d : bytes) : bool :=
  no_star d || match d with a :: b :: r => Byte.eqb a star && Byte.eqb b dot && no_star r | _ => false end.
(** domain.go:44: ^(\*|[[:alnum:]]|[[:alnum:]][[:alnum:]-]{0,61}[[:alnum:]])$ *)
Definition label_ok (l : bytes) : bool :=
  beqb l [star] ||
  match l with
  | [] => false
  | c :: r =>
      is_alnum c &&
      match r with
      | [] => true
      | _ => (length r <=? 62) && forallb (fun x => is_alnum x || Byte.eqb x hyphen) (removelast r) && is_alnum (last r x00)
      end
  end.

(** domain.go:153 removeWildCardAndWWW *)
Definition strip_star (d : bytes) : bytes :=
  if (2 <? length d) && beqb (firstn 2 d) [star; dot] then skipn 2 d else d.
Definition www : bytes := [x77; x77; x77; dot].
Definition strip_www (d : bytes) : bytes :=
  if (4 <? length d) && beqb (firstn 4 d) www then skipn 4 d else d.
Definition strip (d : bytes) : bytes := strip_www (strip_star d).

(** strings.TrimSuffix *)
Definition trim_suffix (s t : bytes) : bytes :=
  let n := length s - length t in
  if (length t <=? length s) && beqb (skipn n s) t then firstn n s else s.

Section Psl.
  Variable psl : bytes -> bytes * bool.

  (** domain.go:86 IsValidDomain *)
  Definition max_domain_length : nat := 255.
  Definition is_valid (d : bytes) : bool :=
    viable d && (length d <=? max_domain_length) &&
    negb (snd (psl d) && beqb (fst (psl d)) d) &&
    forallb label_ok (labels d).

  (** publicsuffix.EffectiveTLDPlusOne: the public suffix and the label before it. strings.LastIndex(domain[:i], ".") + 1 is the
      length of domain[:i] without its last part. *)
  Definition has_empty_label (d : bytes) : bool := existsb (fun l => match l with [] => true | _ => false end) (labels d).
  Definition e2ld (d : bytes) : option bytes :=
    if has_empty_label d && negb (beqb d []) then None
    else
      let suffix := fst (psl d) in
      if length d <=? length suffix then None
      else
        let i := length d - length suffix - 1 in
        match nth_error d i with
        | Some c => if Byte.eqb c dot then Some (skipn (i - length (last (labels (firstn i d)) [])) d) else None
        | None => None
        end.

  (** domain.go:112 SplitE2LD *)
  Definition split_e2ld (d : bytes) : option (list bytes) :=
    if snd (psl d) then
      match e2ld d with
      | None => None
      | Some e =>
          let rest := trim_suffix (trim_suffix d e) [dot] in
          Some (match rest with [] => [] | _ => labels rest end ++ [e])
      end
    else Some [d].

  (** domain.go:236-241: [rest] are the labels still to be put in front, the nearest first. *)
  Fixpoint build_up (cur : bytes) (rest : list bytes) : list bytes :=
    match rest with
    | [] => []
    | l :: rest' => let cur' := l ++ dot :: cur in cur' :: build_up cur' rest'
    end.
  (** domain.go:220 ParseDomainName *)
  Definition parse_domain_name (d : bytes) : option (list bytes) :=
    if is_valid d then
      match split_e2ld (strip d) with
      | None => None
      | Some r =>
          match rev r with
          | [] => None
          | e :: rest => Some (e :: build_up e rest)
          end
      end
    else None.

  (** responder.go:63 GetProof *)
  Definition get_proof (H payload : bytes -> bytes) (limit : nat) (root d : bytes) : M (list response) :=
    match parse_domain_name d with
    | None => fun s => (Err, s)
    | Some parts => get_proofs H payload limit root parts
    end.
End Psl.

(** The rules of publicsuffix.org: the longest matching rule prevails, an exception prevails over all; without match the public
    suffix is the last label. [true] is the ICANN section. *)
Inductive rule_kind : Type := Plain | Wildcard (* *.name *) | Exception (* !name *).
Definition rule : Type := (list bytes * rule_kind * bool)%type.
Fixpoint is_prefix (a b : list bytes) : bool :=
  match a, b with
  | [], _ => true
  | x :: a', y :: b' => beqb x y && is_prefix a' b'
  | _, [] => false
  end.
(** The number of labels of the public suffix by this rule, and whether it is an exception. *)
Definition rule_match (ls : list bytes) (r : rule) : option (nat * bool * bool) :=
  let '(name, kind, icann) := r in
  if is_prefix (rev name) (rev ls) then
    match kind with
    | Plain => Some (length name, false, icann)
    | Wildcard => if length name <? length ls then Some (S (length name), false, icann) else None
    | Exception => Some (pred (length name), true, icann)
    end
  else None.
Fixpoint prevailing (ls : list bytes) (rules : list rule) (best : nat * bool * bool) : nat * bool * bool :=
  match rules with
  | [] => best
  | r :: rules' =>
      let best' :=
        match rule_match ls r with
        | None => best
        | Some (k, ex, ic) =>
            let '(k0, ex0, _) := best in
            if (ex && negb ex0) || (Bool.eqb ex ex0 && (k0 <=? k)) then (k, ex, ic) else best
        end in
      prevailing ls rules' best'
  end.
Definition rules_psl (rules : list rule) (d : bytes) : bytes * bool :=
  let ls := labels d in
  let '(k, _, ic) := prevailing ls rules (1, false, false) in
  (join (skipn (length ls - Nat.max 1 k) ls), ic).

(** util/domain.go:8 ExtractCertDomains: the common name, if not empty, and the DNS names, each once, in any order; ingestion stores
    the certificate under the hash of each of these strings as it is (updater.go:589). *)
Definition add_name (n : bytes) (l : list bytes) : list bytes := if existsb (beqb n) l then l else l ++ [n].
Definition cert_domains (common_name : bytes) (dns_names : list bytes) : list bytes :=
  fold_left (fun l n => add_name n l) dns_names (match common_name with [] => [] | _ => [common_name] end).
