(** What the theorems about domain names speak of. *)
From Verif Require Import Base TrieModel TrieSpec ClientModel DomainModel.

(** A label of a host name (letters, digits, hyphens). *)
Definition host_label (l : bytes) : Prop :=
  1 <= length l <= 63 /\ (forall c, In c l -> is_alnum c = true \/ c = hyphen) /\ hd hyphen l <> hyphen /\ last l hyphen <> hyphen.
(** Host names, possibly with a wildcard in front. *)
Definition host_name (d : bytes) : Prop :=
  length d <= 255 /\ exists ls, ls <> [] /\ Forall host_label ls /\ (d = join ls \/ d = star :: dot :: join ls).

(** The name made of the last [j] labels. *)
Definition upper (j : nat) (d : bytes) : bytes := join (skipn (length (labels d) - j) (labels d)).

(** A public suffix of a name is made of at least one whole label at its end. *)
Definition whole_labels (psl : bytes -> bytes * bool) : Prop :=
  forall d, exists k, 1 <= k <= length (labels d) /\ fst (psl d) = upper k d.

(** The last [j] labels. *)
Definition lastn {A} (j : nat) (l : list A) : list A := skipn (length l - j) l.
Definition www_label : bytes := [x77; x77; x77].
(** What may be in front of the name that is looked up: nothing, a wildcard, "www", or both; if it does not end in "www", the name
    itself does not start with a further "www". *)
Definition asks (pre ls : list bytes) : Prop :=
  (pre = [www_label] \/ pre = [[star]; www_label]) \/
  ((pre = [] \/ pre = [[star]]) /\ forall r, ls = www_label :: r -> r = []).
(** The registrable name (one label more than the public suffix of [k] labels) and the names below it, up to the name itself. *)
Definition parents (k : nat) (ls : list bytes) : list bytes :=
  map (fun j => join (lastn j ls)) (seq (S k) (length ls - k)).

(** The response for one name of the answer: the name itself, its hash and the stored value, with a proof the client accepts. *)
Definition answers (H : bytes -> bytes) (m : kvmap) (name : bytes) (r : response) : Prop :=
  match lookup m (H name) with
  | Some v => entry r = Some (mk_entry name (H name) v) /\ verify_proof_by_domain H r = Ok (PoP, true)
  | None => entry r = Some (mk_entry name (H name) (repeat x00 HashLength)) /\ verify_proof_by_domain H r = Ok (PoA, true)
  end.
