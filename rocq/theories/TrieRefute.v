(** Executions of the trie model with the real SHA-256 on which a property fails. *)
From Verif Require Import Base Sha256 TrieModel TrieSpec BaseLemmas TrieMaps.

Definition key1 (a : byte) : bytes := a :: repeat x00 31.
Definition val1 (a : byte) : bytes := repeat a 32.

Ltac legal_batch :=
  repeat first [apply Forall_cons | apply Forall_nil | exact I | reflexivity | left; reflexivity | right; reflexivity
               | split].

(** The value Get returns after some updates of a new trie. *)
Definition get_after (us : list kvmap) (k : bytes) : res bytes :=
  fst ((r <- updates sha256 300 false us [] ;; trie_get 300 r k) fresh).

(** The same for a trie reopened on the committed database: live cache and pending sets are gone. Each inner list
    is a sequence of Update calls followed by one Commit. *)
Definition reopened_step (m : M bytes) (u : list kvmap) : M bytes :=
  r <- m ;; r' <- updates sha256 300 false u r ;; _ <- commit ;; _ <- reset_live_cache ;; ret r'.
Definition get_reopened (us : list (list kvmap)) (k : bytes) : res bytes :=
  fst ((r <- fold_left reopened_step us (ret []) ;; trie_get 300 r k) fresh).

(** F1: the trie holds one key kB; one batch inserts a smaller key kA, deletes kB and inserts a larger key kC.
    maybeAddShortcutToKV then produces a list with repetitions, out of order. kA ends up in two places; deleting
    kA and kC afterwards brings the second copy to light. *)
Definition f1_kA := key1 x20.
Definition f1_kB := key1 x90.
Definition f1_kC := key1 xc0.
Definition f1_1 : kvmap := [(f1_kB, val1 x01)].
Definition f1_2 : kvmap := [(f1_kA, val1 x02); (f1_kB, DefaultLeaf); (f1_kC, val1 x03)].
Definition f1_3 : kvmap := [(f1_kA, DefaultLeaf); (f1_kC, DefaultLeaf)].
Lemma f1_batches : Forall is_batch [f1_1; f1_2; f1_3].
Proof. legal_batch. Qed.
Lemma f1_get : get_after [f1_1; f1_2; f1_3] f1_kA = Ok (val1 x02).
Proof. vm_compute. reflexivity. Qed.
Definition root_differs (x : res bytes) (r' : bytes) : bool :=
  match x with Ok r => negb (beqb r r') | _ => false end.
Definition f1_root_differs : bool :=
  root_differs (fst (updates sha256 300 false [f1_1; f1_2] [] fresh)) (root_of sha256 (over f1_1 f1_2)).
Lemma f1_root_differs_true : f1_root_differs = true.
Proof. vm_compute. reflexivity. Qed.
Lemma f1_root : exists r, fst (updates sha256 300 false [f1_1; f1_2] [] fresh) = Ok r /\
  r <> root_of sha256 (over f1_1 f1_2).
Proof.
  pose proof f1_root_differs_true as Hq. unfold f1_root_differs, root_differs in Hq.
  destruct (fst (updates sha256 300 false [f1_1; f1_2] [] fresh)) as [r| |]; try discriminate.
  exists r. split; [reflexivity|]. apply beqb_neq. destruct (beqb r _); [discriminate | reflexivity].
Qed.

(** F2: writing the value a key already has. *)
Definition f2_kA := key1 x10.
Definition f2_kB := key1 x11.
Definition f2_kC := key1 x80.
Definition f2_1 : kvmap := [(f2_kA, val1 x01)].
Lemma f2_batch : is_batch f2_1.
Proof. legal_batch. Qed.
Lemma f2_get : get_after [f2_1] f2_kA = Ok (val1 x01) /\ get_after [f2_1; f2_1] f2_kA = Err.
Proof. split; vm_compute; reflexivity. Qed.

(** F25: two keys that differ in the last bit only, inserted one after the other. *)
Definition f25_kY : bytes := repeat x00 31 ++ [x00].
Definition f25_kZ : bytes := repeat x00 31 ++ [x01].
Definition f25_1 : kvmap := [(f25_kY, val1 x01)].
Definition f25_2 : kvmap := [(f25_kZ, val1 x01)].
Lemma f25_batches : Forall is_batch [f25_1; f25_2].
Proof. legal_batch. Qed.
Lemma f25_get : get_after [f25_1; f25_2] f25_kY = Err.
Proof. vm_compute. reflexivity. Qed.

(** F2 for Commit: a batch that changes one key and rewrites another with the value it has. *)
Definition f2_2 : kvmap := [(f2_kA, val1 x01); (f2_kB, val1 x02)].
Definition f2_3 : kvmap := [(f2_kA, val1 x01); (f2_kC, val1 x03)].
Lemma f2_commit_batches : Forall is_batch [f2_2; f2_3].
Proof. legal_batch. Qed.
Lemma f2_commit_get : get_reopened [[f2_2]] f2_kA = Ok (val1 x01) /\
  get_reopened [[f2_2]; [f2_3]] f2_kA = Err.
Proof. split; vm_compute; reflexivity. Qed.

(** Two effective updates between commits that restore the committed value. *)
Definition f2_4 : kvmap := [(f2_kA, val1 x05)].
Lemma f2_twice_batches : Forall is_batch [f2_2; f2_4; f2_1].
Proof. legal_batch. Qed.
Lemma f2_twice_get : get_reopened [[f2_2]; [f2_4]; [f2_1]] f2_kA = Ok (val1 x01) /\
  get_reopened [[f2_2]; [f2_4; f2_1]] f2_kA = Err.
Proof. split; vm_compute; reflexivity. Qed.

(** F26: a forged inclusion proof whose path element is longer than a hash. *)
Definition f26_key' : bytes := key1 x00.
Definition f26_val' : bytes := val1 x07.
Definition f26_m : kvmap := [(sha256 (f26_key' ++ f26_val' ++ [xff]), val1 x09)].
Lemma f26_map : is_map f26_m.
Proof.
  split; [vm_compute; repeat constructor; simpl; tauto|].
  repeat constructor; vm_compute; reflexivity.
Qed.
Lemma f26_accepts :
  verify_inclusion sha256 (root_of sha256 f26_m) [val1 x09 ++ [x00]] f26_key' f26_val' = Some true /\
  lookup f26_m f26_key' = None.
Proof. split; vm_compute; reflexivity. Qed.

(** F28: a forged inclusion proof with a 31-byte value: an inner node is read as a leaf. *)
Definition f28_v : bytes := x01 :: x88 :: repeat x00 30.
Definition f28_m : kvmap := [(key1 x00, val1 x01); (key1 x80, f28_v)].
Definition f28_l : bytes := sha256 (key1 x00 ++ val1 x01 ++ [xff]).
Definition f28_r : bytes := sha256 (key1 x80 ++ f28_v ++ [xff]).
Lemma f28_map : is_map f28_m.
Proof.
  split; [|repeat constructor].
  simpl. constructor; [simpl; intros [Hq|[]]; discriminate | repeat constructor; simpl; tauto].
Qed.
Lemma f28_accepts :
  verify_inclusion sha256 (root_of sha256 f28_m) [] f28_l (firstn 31 f28_r) = Some true /\
  length f28_l = 32 /\ lookup f28_m f28_l = None.
Proof. split; [vm_compute; reflexivity|]. split; vm_compute; reflexivity. Qed.

(** F3: a proof of presence is also accepted as a proof of absence of the same key; F27: and so it is if the
    boundary between proof key and proof value is moved. *)
Definition f3_m : kvmap := [(key1 x10, val1 x01)].
Lemma f3_map : is_map f3_m.
Proof. split; repeat constructor; simpl; tauto. Qed.
Lemma f3_accepts :
  verify_non_inclusion sha256 (Some (root_of sha256 f3_m)) [] (key1 x10) (val1 x01) (key1 x10) = Some true /\
  lookup f3_m (key1 x10) = Some (val1 x01).
Proof. split; vm_compute; reflexivity. Qed.
Lemma f27_accepts :
  verify_non_inclusion sha256 (Some (root_of sha256 f3_m)) [] (key1 x10) (x00 :: val1 x01) (firstn 31 (key1 x10))
    = Some true /\
  firstn 31 (key1 x10) <> key1 x10.
Proof. split; [vm_compute; reflexivity | discriminate]. Qed.

(** F4: a path of 257 elements. *)
Lemma f4_panics : verify_inclusion sha256 [] (repeat [] 257) (key1 x00) (val1 x00) = None.
Proof. vm_compute. reflexivity. Qed.

(** F29: both keys are in the right half, and the hash of the right half ends in a zero byte; the string hashed at the
    root, "0 ++ hash", is read as "31 bytes of it ++ 0". *)
Definition f29_m : kvmap := [(key1 x80, val1 x00); (key1 xc0, val1 xc9)].
Definition f29_r : bytes :=
  sha256 (sha256 (key1 x80 ++ val1 x00 ++ [xfe]) ++ sha256 (key1 xc0 ++ val1 xc9 ++ [xfe])).
Definition f29_path : list bytes := [x00 :: firstn 31 f29_r].
Lemma f29_map : is_map f29_m.
Proof.
  split; [|repeat constructor].
  simpl. constructor; [simpl; intros [Hq|[]]; discriminate | repeat constructor; simpl; tauto].
Qed.
Lemma f29_accepts :
  verify_non_inclusion sha256 (Some (root_of sha256 f29_m)) f29_path (key1 x80) [] [] = Some true.
Proof. vm_compute. reflexivity. Qed.
Lemma f29_legal : legal_path f29_path.
Proof. vm_compute. repeat constructor. Qed.

(** F30: on the empty trie the compressed verifier refuses the compressed prover's own proof of absence. *)
Lemma f30_refuses :
  match fst (trie_merkle_proof_compressed 300 [] (key1 x80) fresh) with
  | Ok (bm, mp, len, inc, pk, pv) =>
      verify_non_inclusion_c sha256 [] mp len bm (key1 x80) pv pk
  | _ => None
  end = Some false.
Proof. reflexivity. Qed.
