(** Concrete logs with SHA-256, and what remains for the theorems about the verifier of the policy log. *)
From Verif Require Import Base BaseLemmas Sha256 Sha256Length LogTreeModel LogTreeSpec LogTreeProofs LogTreeResults.

Lemma root_complete : forall hash leaves n1,
  (forall x, length (hash x) = 32) -> 0 < n1 <= length leaves ->
  verify_root hash (Some (mk_root (N.of_nat n1) (log_hash hash (firstn n1 leaves)))) (Some (mk_root (N.of_nat (length leaves)) (log_hash hash leaves)))
    (consistency_path hash n1 leaves) = VOk.
Proof. intros hash leaves n1 Hl H. apply verify_root_ok. right. apply (consistency_complete hash leaves n1 H). Qed.
Lemma root_sound : forall hash leaves t proof,
  (forall x, length (hash x) = 32) -> tree_size t <> 0%N -> Forall (fun h => length h = 32) proof ->
  verify_root hash (Some t) (Some (mk_root (N.of_nat (length leaves)) (log_hash hash leaves))) proof = VOk ->
  (N.to_nat (tree_size t) <= length leaves /\ root_hash t = log_hash hash (firstn (N.to_nat (tree_size t)) leaves)) \/
  collides hash (log_strings hash leaves ++ consistency_strings hash (tree_size t) (N.of_nat (length leaves)) proof (root_hash t)).
Proof.
  intros hash leaves t proof Hl T0 Z H. apply verify_root_ok in H. destruct H as [H|H]; [contradiction|]. cbn [tree_size root_hash] in H.
  assert (E : tree_size t = N.of_nat (N.to_nat (tree_size t))) by lia. rewrite E in H |- *. rewrite <- E.
  rewrite <- E in H at 1. rewrite E in H.
  destruct (consistency_sound hash Hl leaves (N.to_nat (tree_size t)) proof (root_hash t)) as [R|C]; [lia|exact Z|exact H|left; exact R|right]. rewrite <- E in C. exact C.
Qed.
Lemma root_of_logs : forall hash leaves1 leaves2 proof,
  (forall x, length (hash x) = 32) -> leaves1 <> [] ->
  let n1 := N.of_nat (length leaves1) in let n2 := N.of_nat (length leaves2) in let r1 := log_hash hash leaves1 in
  verify_root hash (Some (mk_root n1 r1)) (Some (mk_root n2 (log_hash hash leaves2))) proof = VOk ->
  leaves1 = firstn (length leaves1) leaves2 \/
  collides hash (log_strings hash leaves1 ++ log_strings hash leaves2 ++ consistency_strings hash n1 n2 proof r1 ++
                 consistency_strings_right hash n1 n2 proof r1 ++ log_strings hash (firstn (length leaves1) leaves2)).
Proof.
  intros hash l1 l2 proof Hl Hne n1 n2 r1 H. assert (H0 : 0 < length l1) by (destruct l1; [congruence|cbn; lia]).
  apply verify_root_ok in H. destruct H as [H|H]; [cbn [tree_size] in H; unfold n1 in H; lia|]. exact (consistency_both hash Hl l1 l2 proof H0 H).
Qed.

Lemma verify_proofs_skip hash t leaf before rest :
  Forall (fun q => exists p, q = Some p /\ verify_inclusion hash (to_uint64 (leaf_index p)) (tree_size t) leaf (hashes p) (root_hash t) <> VBad /\
     verify_inclusion hash (to_uint64 (leaf_index p)) (tree_size t) leaf (hashes p) (root_hash t) <> VPanic) before ->
  verify_proofs hash t leaf rest = VOk -> verify_proofs hash t leaf (before ++ rest) = VOk.
Proof.
  intros F H. induction F as [|q before (p & -> & N1 & N2) F IH]; [exact H|]. cbn [app verify_proofs].
  destruct (verify_inclusion _ _ _ _ _ _); congruence.
Qed.
Lemma one_enough : forall hash leaves m before after,
  (forall x, length (hash x) = 32) -> m < length leaves -> (Z.of_nat m < 2 ^ 63)%Z ->
  Forall (fun q => exists p, q = Some p /\ N.to_nat (to_uint64 (leaf_index p)) < length leaves /\
            length (hashes p) = length (inclusion_path hash (N.to_nat (to_uint64 (leaf_index p))) leaves)) before ->
  verify_inclusion_by_hash hash (Some (mk_root (N.of_nat (length leaves)) (log_hash hash leaves))) (hash_leaf hash (nth m leaves []))
    (before ++ Some (mk_proof (Z.of_nat m) (inclusion_path hash m leaves)) :: after) = VOk.
Proof.
  intros hash leaves m before after Hl Hm H63 F. cbn [verify_inclusion_by_hash]. apply verify_proofs_skip.
  - eapply Forall_impl; [|exact F]. cbv beta. intros q (p & -> & Hi & Lp). exists p. split; [reflexivity|]. cbn [tree_size root_hash].
    set (index := to_uint64 (leaf_index p)) in *.
    assert (OK := inclusion_complete hash Hl leaves (N.to_nat index) _ Hi eq_refl). apply verify_inclusion_ok in OK. destruct OK as (_ & _ & Lk & _).
    rewrite N2Nat.id in Lk. rewrite <- Lp, lib_sides_length in Lk.
    unfold verify_inclusion, root_from_inclusion. rewrite (proj2 (N.leb_gt _ _)) by lia. unfold hash_leaf at 1 3. rewrite Hl. change (32 =? hash_size) with true. cbn [negb].
    unfold inner_proof_size. rewrite (proj2 (Nat.eqb_eq _ _) Lk). cbn [negb]. unfold verify_match. destruct (beqb _ _); split; discriminate.
  - cbn [verify_proofs tree_size root_hash leaf_index hashes]. replace (to_uint64 (Z.of_nat m)) with (N.of_nat m) by (unfold to_uint64; rewrite Z.mod_small by lia; lia).
    rewrite (inclusion_complete hash Hl leaves m _ Hm eq_refl). reflexivity.
Qed.

(** * Logs of five and of four leaves *)
Definition ex_leaves : list bytes := [[x30]; [x31]; [x32]; [x33]; [x34]].
Definition ex_root : log_root := mk_root 5 (log_hash sha256 ex_leaves).
Definition is_ok (v : verdict) : bool := match v with VOk => true | _ => false end.
Lemma inclusion_case :
  length (inclusion_path sha256 4 ex_leaves) = 1 /\ length (inclusion_path sha256 2 ex_leaves) = 3 /\
  verify_inclusion_by_hash sha256 (Some ex_root) (hash_leaf sha256 [x32])
    [Some (mk_proof 4 (inclusion_path sha256 4 ex_leaves)); Some (mk_proof 2 (inclusion_path sha256 2 ex_leaves))] = VOk /\
  verify_inclusion_by_hash sha256 (Some ex_root) (hash_leaf sha256 [x32]) [Some (mk_proof 4 (inclusion_path sha256 4 ex_leaves))] = VMismatch.
Proof. split; [vm_compute; reflexivity|]. split; [vm_compute; reflexivity|]. split; vm_compute; reflexivity. Qed.
Lemma consistency_case :
  map (fun n1 => length (consistency_path sha256 n1 ex_leaves)) [1; 2; 3; 4; 5] = [3; 2; 4; 1; 0] /\
  Forall (fun h => length h = 32) (consistency_path sha256 3 ex_leaves) /\
  verify_root sha256 (Some (mk_root 3 (log_hash sha256 (firstn 3 ex_leaves)))) (Some ex_root) (consistency_path sha256 3 ex_leaves) = VOk /\
  verify_root sha256 (Some (mk_root 3 (log_hash sha256 [[x30]; [x31]; [x33]]))) (Some ex_root) (consistency_path sha256 3 ex_leaves) = VBad.
Proof.
  split; [vm_compute; reflexivity|]. split; [|split; vm_compute; reflexivity].
  assert (H : forallb (fun h => length h =? 32) (consistency_path sha256 3 ex_leaves) = true) by (vm_compute; reflexivity).
  apply Forall_forall. intros x Hx. apply Nat.eqb_eq. exact (proj1 (forallb_forall _ _) H x Hx).
Qed.
Lemma prev_case :
  let good := [Some (mk_proof 2 (inclusion_path sha256 2 (firstn 3 ex_leaves)))] in
  let t := mk_root 3 (log_hash sha256 (firstn 3 ex_leaves)) in
  verify_with_prev sha256 (Some t) (Some ex_root) (consistency_path sha256 3 ex_leaves) (hash_leaf sha256 [x32]) good = VOk /\
  verify_with_prev sha256 (Some t) (Some ex_root) (consistency_path sha256 3 ex_leaves) (hash_leaf sha256 [x33]) good = VMismatch.
Proof. split; vm_compute; reflexivity. Qed.
Lemma one_case :
  let before := [Some (mk_proof 4 [[]]); Some (mk_proof 1 [repeat x00 32; []; [x01; x02]])] in
  Forall (fun q => exists p, q = Some p /\ N.to_nat (to_uint64 (leaf_index p)) < length ex_leaves /\
            length (hashes p) = length (inclusion_path sha256 (N.to_nat (to_uint64 (leaf_index p))) ex_leaves)) before.
Proof.
  cbv zeta. apply Forall_cons; [|apply Forall_cons; [|apply Forall_nil]].
  - exists (mk_proof 4 [[]]). split; [reflexivity|]. split; [apply Nat.ltb_lt; vm_compute; reflexivity|vm_compute; reflexivity].
  - exists (mk_proof 1 [repeat x00 32; []; [x01; x02]]). split; [reflexivity|]. split; [apply Nat.ltb_lt; vm_compute; reflexivity|vm_compute; reflexivity].
Qed.
Lemma one_refuted : exists leaves m,
  let good := Some (mk_proof (Z.of_nat m) (inclusion_path sha256 m leaves)) in
  let verify := verify_inclusion_by_hash sha256 (Some (mk_root (N.of_nat (length leaves)) (log_hash sha256 leaves))) (hash_leaf sha256 (nth m leaves [])) in
  verify [good] = VOk /\ verify [Some (mk_proof 0 []); good] = VBad /\ verify [Some (mk_proof (-1) []); good] = VBad /\ verify [None; good] = VPanic.
Proof. exists (firstn 2 ex_leaves), 1. cbv zeta. split; [vm_compute; reflexivity|]. split; [vm_compute; reflexivity|]. split; vm_compute; reflexivity. Qed.

(** A list of strings without a collision *)
Fixpoint distinct_from (x h : bytes) (l : list (bytes * bytes)) : bool :=
  match l with [] => true | (y, k) :: r => (beqb x y || negb (beqb h k)) && distinct_from x h r end.
Definition no_collision (hash : bytes -> bytes) (l : list bytes) : bool :=
  let t := map (fun x => (x, hash x)) l in forallb (fun p => distinct_from (fst p) (snd p) t) t.
Lemma no_collision_spec hash l : no_collision hash l = true -> ~ collides hash l.
Proof.
  unfold no_collision. intros H (x & y & Hx & Hy & N & E). assert (D := proj1 (forallb_forall _ _) H (x, hash x) (in_map (fun x => (x, hash x)) _ _ Hx)).
  cbn [fst snd] in D. assert (Hy' := in_map (fun x => (x, hash x)) _ _ Hy). clear H. induction (map (fun x => (x, hash x)) l) as [|(z, k) t IH]; [destruct Hy'|].
  cbn [distinct_from] in D. apply andb_true_iff in D. destruct D as [D1 D2]. destruct Hy' as [Q|Hy']; [|exact (IH D2 Hy')].
  injection Q as -> ->. apply orb_true_iff in D1. destruct D1 as [D1|D1].
  - apply (reflect_iff _ _ (beqb_spec x y)) in D1. contradiction.
  - rewrite E in D1. destruct (beqb_spec (hash y) (hash y)); [discriminate|congruence].
Qed.

(** The attack: the third leaf of four, cut in two other places *)
Definition at_leaves : list bytes := [[x30]; [x31]; [x32]; [x33]].
Definition at_border : bytes := hash_children sha256 (hash_leaf sha256 [x30]) (hash_leaf sha256 [x31]).
Definition at_l2 : bytes := hash_leaf sha256 [x32].
Definition at_seed : bytes := firstn 31 at_l2.
Definition at_consistency : list bytes := [at_seed; skipn 31 at_l2 ++ hash_leaf sha256 [x33]; at_border].
Definition at_root : log_root := mk_root 3 (hash_children sha256 at_border at_seed).
Definition at_leaf : bytes := skipn 31 at_border ++ at_seed.
Definition at_proofs : list (option log_proof) := [Some (mk_proof 2 [firstn 31 at_border])].

Lemma consistency_refuted : exists leaves t proof,
  tree_size t <> 0%N /\
  verify_root sha256 (Some t) (Some (mk_root (N.of_nat (length leaves)) (log_hash sha256 leaves))) proof = VOk /\
  root_hash t <> log_hash sha256 (firstn (N.to_nat (tree_size t)) leaves) /\
  ~ collides sha256 (log_strings sha256 leaves ++ log_strings sha256 (firstn (N.to_nat (tree_size t)) leaves) ++
                     consistency_strings sha256 (tree_size t) (N.of_nat (length leaves)) proof (root_hash t)).
Proof.
  exists at_leaves, at_root, at_consistency. split; [discriminate|]. split; [vm_compute; reflexivity|]. split.
  - assert (H : beqb (root_hash at_root) (log_hash sha256 (firstn (N.to_nat (tree_size at_root)) at_leaves)) = false) by (vm_compute; reflexivity).
    intros E. rewrite E, beqb_refl in H. discriminate H.
  - apply no_collision_spec. vm_compute. reflexivity.
Qed.
Lemma prev_refuted : exists leaves t consistency leaf_hash proofs,
  verify_with_prev sha256 (Some t) (Some (mk_root (N.of_nat (length leaves)) (log_hash sha256 leaves))) consistency leaf_hash proofs = VOk /\
  ~ In leaf_hash (map (hash_leaf sha256) leaves) /\
  ~ collides sha256 (log_strings sha256 leaves ++ log_strings sha256 (firstn (N.to_nat (tree_size t)) leaves) ++
                     consistency_strings sha256 (tree_size t) (N.of_nat (length leaves)) consistency (root_hash t) ++
                     proofs_strings sha256 (tree_size t) leaf_hash proofs).
Proof.
  exists at_leaves, at_root, at_consistency, at_leaf, at_proofs. split; [vm_compute; reflexivity|]. split.
  - assert (H : forallb (fun h => negb (beqb at_leaf h)) (map (hash_leaf sha256) at_leaves) = true) by (vm_compute; reflexivity).
    intros I. apply (proj1 (forallb_forall _ _) H) in I. rewrite beqb_refl in I. cbn [negb] in I. discriminate I.
  - apply no_collision_spec. vm_compute. reflexivity.
Qed.
