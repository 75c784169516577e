(** C95: the temporary files of an ingestion. *)
From Coq Require Import Strings.String.
From Verif Require Import Base BaseLemmas SysModel SysProofs LoadModel TempModel TempBuf TempProofs TempSteps TempInv TempTop.
Local Open Scope list_scope.
Local Notation length := List.length.

(** The prefixes are paths, and the buffers hold a whole name and its end. *)
Definition prefixes_ok (cap : nat) (kinds : nat -> list bytes) : Prop :=
  forall i, kinds i <> [] /\ forall p, In p (kinds i) -> p <> [] /\ ~ In x00 p /\ length p + random_count + length suffix < cap.
(** csv.go:44, :59, :75, :91: the prefixes of the code; line 0 is one of certificates, line 1 one of domains. *)
Definition path (s : string) : bytes := list_byte_of_string s.
Definition code_kinds (i : nat) : list bytes :=
  if Nat.even i then [path "/mnt/data/tmp/fpki-ingest-certs-"]
  else [path "/mnt/data/tmp/fpki-ingest-dirty-"; path "/mnt/data/tmp/fpki-ingest-domains-"; path "/mnt/data/tmp/fpki-ingest-domain_certs-"].
Definition code_skips (i : nat) : bool := Nat.odd i.

Example code_meets : prefixes_ok 2048 code_kinds /\ 3 <= 8.
Proof.
  split; [|lia]. assert (X : forall i, code_kinds i = code_kinds 0 \/ code_kinds i = code_kinds 1) by (intros i; unfold code_kinds; destruct (Nat.even i); auto).
  intros i. destruct (X i) as [-> | ->]; (split; [discriminate|]); intros p H.
  - destruct H as [<-|[]]; (split; [discriminate|]; split; [cbn; intros H; intuition discriminate | cbn; lia]).
  - destruct H as [<-|[<-|[<-|[]]]]; (split; [discriminate|]; split; [cbn; intros H; intuition discriminate | cbn; lia]).
Qed.

(** ** The name *)
Definition name_char (c : Byte.byte) : Prop := let n := Byte.to_nat c in c = x2d \/ 48 <= n <= 57 \/ 97 <= n <= 122.
Lemma name_chars c : In c char_map -> name_char c.
Proof. intros H. unfold name_char. assert (X : forallb (fun c => Byte.eqb c x2d || (48 <=? Byte.to_nat c) && (Byte.to_nat c <=? 57) || (97 <=? Byte.to_nat c) && (Byte.to_nat c <=? 122)) char_map = true) by (vm_compute; reflexivity).
  rewrite forallb_forall in X. specialize (X c H). cbn beta in X. rewrite !orb_true_iff, !andb_true_iff, !Nat.leb_le in X.
  destruct X as [[X|X]|X]; [left; apply Byte.byte_dec_bl; exact X | auto | auto]. Qed.
(** If the storage has room for the prefix, ten characters, the suffix and one more byte: the name is the prefix, ten digits, hyphens or
    small letters, the suffix; the kernel and the returned string see the same name. *)
Theorem C95_name : forall storage prefix suffix draw, prefix <> [] -> ~ In x00 prefix -> ~ In x00 suffix ->
  length prefix + 10 + length suffix < length storage ->
  exists x r, prepare storage prefix suffix = Ok x /\ length r = 10 /\ (forall c, In c r -> name_char c) /\
    cstring (randomize x prefix draw) = prefix ++ r ++ suffix /\
    firstn (length prefix + 10 + length suffix) (randomize x prefix draw) = prefix ++ r ++ suffix /\ length (randomize x prefix draw) = length storage.
Proof.
  intros storage prefix suffix draw Hp Hz Hs Hl. destruct (prepare_spec (length storage) storage prefix suffix eq_refl Hp Hl) as (x & Ex & Fx).
  exists x, (random_part draw). destruct (randomize_spec (length storage) x prefix suffix draw Hz Hp Hs Fx) as (N & _ & C).
  split; [exact Ex|]. split; [apply random_part_length|]. split; [intros c Hc; exact (name_chars c (random_part_chars draw c Hc))|]. split; [exact C|]. split; [|apply N].
  destruct (holds_name_facts _ _ _ N) as [F _]. replace (length prefix + 10 + length suffix) with (length (prefix ++ random_part draw ++ suffix)); [exact F|].
  rewrite !app_length, random_part_length. unfold random_count. lia.
Qed.
(** Different draws give different names. *)
Theorem C95_names_differ : forall d1 d2, length d1 = 10 -> length d2 = 10 -> (forall k, k < 10 -> nth k d1 0 < 37) ->
  (forall k, k < 10 -> nth k d2 0 < 37) -> d1 <> d2 -> random_part d1 <> random_part d2.
Proof. intros d1 d2 L1 L2 H1 H2 N E. apply N. exact (map_nth_inj d1 d2 L1 L2 H1 H2 E). Qed.
(** The comment of CreateTempFile asks for room for the prefix, ten characters and one byte only: then every call with a suffix panics. *)
Theorem C95_storage_refuted : exists storage prefix suffix, length storage = length prefix + 10 + 1 /\ prefix <> [] /\ ~ In x00 prefix /\ ~ In x00 suffix /\
  prepare storage prefix suffix = Panic.
Proof.
  exists (repeat x00 12), [x61], [x2e]. split; [reflexivity|]. split; [discriminate|]. split; [cbn; intros [H|[]]; discriminate|].
  split; [cbn; intros [H|[]]; discriminate | vm_compute; reflexivity].
Qed.
Example C95_name_ex : exists x, prepare (repeat x7a 64) (path "/mnt/data/tmp/fpki-ingest-certs-") (path ".csv") = Ok x /\
  cstring (randomize x (path "/mnt/data/tmp/fpki-ingest-certs-") [0; 10; 36; 5]) = path "/mnt/data/tmp/fpki-ingest-certs-0-z5000000.csv".
Proof. eexists. split; vm_compute; reflexivity. Qed.

Section Run.
  Variable cap ring : nat.
  Variable kinds : nat -> list bytes.
  Variable skips : nat -> bool.
  Variable work : nat -> list batch.
  Variable files : list (bytes * bytes).
  Notation state l := (run (sys_step ring kinds skips) (sys_start cap work files) l).

  (** In every run of any number of lines, with any failures, draws and files of others: no step panics. *)
  Theorem C95_no_panic : 3 <= ring -> prefixes_ok cap kinds -> NoDup (map fst files) -> forall l, panicked (state l) = false.
  Proof. intros Hr Hp Hn l. exact (proj1 (run_keeps cap ring kinds skips work Hr (fun i => proj1 (Hp i)) (fun i => proj2 (Hp i)) files l Hn)). Qed.

  (** What the database has loaded is a prefix of the files of the batches, in order, each complete. *)
  Theorem C95_loaded : 3 <= ring -> prefixes_ok cap kinds -> NoDup (map fst files) -> forall l i,
    exists rest, flat_map (expected kinds i) (batches skips i (work i)) = loaded (lines (state l) i) ++ rest.
  Proof.
    intros Hr Hp Hn l i. apply (loaded_prefix cap ring kinds skips work Hr).
    exact (run_keeps cap ring kinds skips work Hr (fun i => proj1 (Hp i)) (fun i => proj2 (Hp i)) files l Hn).
  Qed.

  (** A line that has finished has loaded all. *)
  Theorem C95_all_loaded : 3 <= ring -> prefixes_ok cap kinds -> NoDup (map fst files) -> forall l i, finished (lines (state l) i) = true ->
    loaded (lines (state l) i) = flat_map (expected kinds i) (batches skips i (work i)).
  Proof.
    intros Hr Hp Hn l i. apply (loaded_all cap ring kinds skips work).
    exact (run_keeps cap ring kinds skips work Hr (fun i => proj1 (Hp i)) (fun i => proj2 (Hp i)) files l Hn).
  Qed.

  (** The files that were there before keep their contents, and so do the files that others create. *)
  Theorem C95_foreign : 3 <= ring -> prefixes_ok cap kinds -> NoDup (map fst files) ->
    (forall l p w, In (p, w) files -> read (state l) p = Some w) /\
    (forall l l' p w, read (state l) p = None -> read (state (l ++ AForeign p w :: l')) p = Some w).
  Proof.
    intros Hr Hp Hn. pose proof (run_keeps cap ring kinds skips work Hr (fun i => proj1 (Hp i)) (fun i => proj2 (Hp i)) files) as R.
    split.
    - intros l p w H. apply (foreign_read cap ring kinds skips work); [apply R; exact Hn|]. apply foreign_run. exact H.
    - intros l l' p w H. apply (foreign_read cap ring kinds skips work); [apply R; exact Hn|].
      rewrite run_app, run_cons. apply foreign_run. pose proof (proj1 (R l Hn)) as P. set (s := state l) in *. unfold do, sys_step. rewrite P.
      unfold read in H. destruct (lookup p (fs s)); [discriminate H|]. left. reflexivity.
  Qed.

  (** When all lines have finished: no descriptor is open, and the folder has only files of others. *)
  Theorem C95_clean : 3 <= ring -> prefixes_ok cap kinds -> NoDup (map fst files) -> forall l, (forall i, finished (lines (state l) i) = true) ->
    opened (state l) = [] /\ forall p w, read (state l) p = Some w -> In (p, w) files \/ In (AForeign p w) l.
  Proof.
    intros Hr Hp Hn l F. pose proof (run_keeps cap ring kinds skips work Hr (fun i => proj1 (Hp i)) (fun i => proj2 (Hp i)) files l Hn) as I.
    destruct (all_finished cap ring kinds skips work _ I F) as [A B]. split; [exact A|]. intros p w H. unfold read in H.
    destruct (lookup p (fs (state l))) as [f|] eqn:E; [|discriminate H]. pose proof (B p (in_map fst _ _ (lookup_in _ _ _ E))) as X.
    apply in_map_iff in X as ([q v] & X1 & X2). cbn in X1. subst q. pose proof (foreign_read cap ring kinds skips work _ p v I X2) as Y. unfold read in Y.
    rewrite E in Y. assert (v = w) by congruence. subst v. exact (foreign_only ring kinds skips l _ p w X2).
  Qed.

  (** The stages that insert and remove fail only if a call to the database or to the system fails: the file is always there. *)
  Theorem C95_causes : 3 <= ring -> prefixes_ok cap kinds -> NoDup (map fst files) -> forall l i,
    (forall n j, ins (lines (state l) i) = IFail n j -> In (AIns i false) l) /\
    (forall n, rem (lines (state l) i) = RFail n -> In (ARem i false) l).
  Proof.
    intros Hr Hp Hn l i.
    pose proof (start_inv cap ring kinds skips work Hr files Hn) as I.
    destruct (cause_run cap ring kinds skips work Hr (fun i => proj1 (Hp i)) (fun i => proj2 (Hp i)) i l _ I) as [A B].
    split; intros; [destruct A as [X|X] | destruct B as [X|X]]; try contradiction; try exact X; unfold ins_failed, rem_failed; rewrite H; exact Logic.I.
  Qed.

  (** If the stages of a line get their turns, it finishes, or one of its stages fails, whatever the other lines do. *)
  Theorem C95_ends : 3 <= ring -> prefixes_ok cap kinds -> NoDup (map fst files) -> forall i f, turns i f ->
    exists n, finished (lines (state (prefix f n)) i) = true \/ failed (lines (state (prefix f n)) i) = true.
  Proof. intros Hr Hp Hn i f Ht. exact (line_ends cap ring kinds skips work Hr (fun i => proj1 (Hp i)) (fun i => proj2 (Hp i)) files i f Hn Ht). Qed.
End Run.

(** A line makes no more steps than a bound that depends on its batches only, whatever happens and whatever the other lines do. *)
Theorem C95_bound : forall cap ring kinds skips i bs, 3 <= ring -> prefixes_ok cap kinds ->
  exists bound, forall work files l, work i = bs -> NoDup (map fst files) -> steps_of ring kinds skips i (sys_start cap work files) l <= bound.
Proof.
  intros cap ring kinds skips i bs Hr Hp. exists (weight kinds i (new_line cap bs)). intros work files l <- Hn.
  apply (steps_bound cap ring kinds skips work Hr (fun i => proj1 (Hp i)) (fun i => proj2 (Hp i)) i l (sys_start cap work files)).
  exact (start_inv cap ring kinds skips work Hr files Hn).
Qed.

(** ** A concrete run *)
Definition good (d : list nat) : choice := mk_choice d true 0 false.
Definition ex_work (i : nat) : list batch :=
  match i with
  | 0 => [[[[path "a"; path "b"]]]; [[]]; [[[path "c"]]]]
  | 1 => [[[[path "d"]]; [[path "d"; path "n"]]; [[path "d"; path "c"]]]; [[]; []; []]]
  | _ => []
  end.
Definition ex_files : list (bytes * bytes) := [(path "/mnt/data/tmp/x", path "mine")].
Definition round (k : nat) : list action :=
  [AMake 0 (good [k]); AIns 0 true; ARem 0 true; AMake 1 (good [k; 1]); AIns 1 true; ARem 1 true].
Definition ex_run : list action := flat_map round (seq 0 5) ++ [AForeign (path "/mnt/data/tmp/y") (path "new")] ++ flat_map round (seq 5 29).
Example C95_run_ex : let s := run (sys_step 8 code_kinds code_skips) (sys_start 64 ex_work ex_files) ex_run in
  finished (lines s 0) = true /\ finished (lines s 1) = true /\ map fst (fs s) = [path "/mnt/data/tmp/y"; path "/mnt/data/tmp/x"] /\
  loaded (lines s 0) = [(0, path "a,b" ++ [newline]); (0, []); (0, path "c" ++ [newline])] /\
  loaded (lines s 1) = [(0, path "d" ++ [newline]); (1, path "d,n" ++ [newline]); (2, path "d,c" ++ [newline])].
Proof. vm_compute. repeat split. Qed.
Example C95_small : prefixes_ok 64 code_kinds.
Proof.
  assert (X : forall i, code_kinds i = code_kinds 0 \/ code_kinds i = code_kinds 1) by (intros i; unfold code_kinds; destruct (Nat.even i); auto).
  intros i. destruct (X i) as [-> | ->]; (split; [discriminate|]); intros p H.
  - destruct H as [<-|[]]; (split; [discriminate|]; split; [cbn; intros H; intuition discriminate | cbn; lia]).
  - destruct H as [<-|[<-|[<-|[]]]]; (split; [discriminate|]; split; [cbn; intros H; intuition discriminate | cbn; lia]).
Qed.
Example C95_turns_ex : turns 0 (fun k => nth (k mod 3) [AMake 0 (good [k]); AIns 0 true; ARem 0 true] (AIns 0 true)).
Proof.
  intros n. assert (D : forall r, r < 3 -> (n * 3 + r) mod 3 = r) by (intros r Hr; rewrite Nat.add_comm, Nat.mod_add, Nat.mod_small by lia; reflexivity).
  split; [exists (n * 3 + 0), (good [n * 3 + 0]) | split; [exists (n * 3 + 1), true | exists (n * 3 + 2), true]]; rewrite D by lia; (split; [lia | reflexivity]).
Qed.

(** ** What fails *)
(** A failed write leaves the part of the file that was written, which may end in the middle of a field, and an open descriptor, for the rest
    of the process. *)
Theorem C95_cleanup_refuted : exists work l p w f c r,
  (forall q v, ~ In (AForeign q v) l) /\ p <> [] /\ work 0 = [[[[w ++ c :: r]]]] /\
  forall l', let s := run (sys_step 8 code_kinds code_skips) (sys_start 64 work []) (l ++ l') in read s p = Some w /\ In f (opened s).
Proof.
  set (work := fun i => match i with 0 => [[[[path "ab"]]]] | _ => [] end : list batch).
  set (l := [AMake 0 (good [1]); AMake 0 (good [1]); AMake 0 (good []); AMake 0 (good []); AMake 0 (mk_choice [] false 1 false)]).
  exists work, l, (path "/mnt/data/tmp/fpki-ingest-certs-1000000000.csv"), (path "a"), 0, x62, [].
  split; [intros q v; cbn; intuition discriminate|]. split; [discriminate|]. split; [reflexivity|]. intros l' s.
  assert (Hp := C95_small). assert (Hr : 3 <= 8) by lia.
  pose proof (run_keeps 64 8 code_kinds code_skips work Hr (fun i => proj1 (Hp i)) (fun i => proj2 (Hp i)) [] l ltac:(constructor)) as I.
  assert (O : orphan (run (sys_step 8 code_kinds code_skips) (sys_start 64 work []) l) (path "/mnt/data/tmp/fpki-ingest-certs-1000000000.csv") (path "a") 0).
  { split; [vm_compute; reflexivity|]. split; [vm_compute; reflexivity|]. split; [vm_compute; left; reflexivity|].
    intros i. destruct i; vm_compute; intros []. }
  destruct (orphan_run 64 8 code_kinds code_skips work Hr (fun i => proj1 (Hp i)) (fun i => proj2 (Hp i)) l' _ _ _ _ I O) as (A & B & C & _).
  unfold s. rewrite run_app. split; [unfold read; rewrite A, B; reflexivity | exact C].
Qed.

(** Three buffers are needed: with two, the file of another batch is removed, and its insertion fails although no call failed. *)
Definition all_good (a : action) : bool := match a with AMake _ c => ok c | AIns _ g | ARem _ g => g | AForeign _ _ => false end.
Theorem C95_two_buffers_refuted : exists work l, forallb all_good l = true /\
  let s := run (sys_step 2 code_kinds code_skips) (sys_start 64 work []) l in
  failed (lines s 0) = true /\ length (fs s) = 1 /\ length (batches code_skips 0 (work 0)) = 3 /\ length (loaded (lines s 0)) = 2.
Proof.
  set (work := fun i => match i with 0 => [[[[path "a"]]]; [[[path "b"]]]; [[[path "c"]]]] | _ => [] end : list batch).
  set (make := fun k => repeat (AMake 0 (good [k])) 7).
  exists work, (make 1 ++ [AMake 0 (good [])] ++ [AIns 0 true; AIns 0 true; AIns 0 true] ++ make 2 ++ [AMake 0 (good [])] ++ [AIns 0 true; AIns 0 true] ++
           make 3 ++ [ARem 0 true; AIns 0 true; AMake 0 (good []); AIns 0 true; ARem 0 true]).
  vm_compute. repeat split.
Qed.

Print Assumptions C95_name.
Print Assumptions C95_names_differ.
Print Assumptions C95_storage_refuted.
Print Assumptions C95_no_panic.
Print Assumptions C95_loaded.
Print Assumptions C95_all_loaded.
Print Assumptions C95_foreign.
Print Assumptions C95_clean.
Print Assumptions C95_causes.
Print Assumptions C95_bound.
Print Assumptions C95_ends.
Print Assumptions C95_cleanup_refuted.
Print Assumptions C95_two_buffers_refuted.
