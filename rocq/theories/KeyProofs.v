(** Proofs for KeyModel.v: public keys as DER. *)
From Verif Require Import Base BaseLemmas LoadModel LoadProofs KeyModel.
Local Open Scope N_scope.

Lemma to_N_small b : Byte.to_N b < 256.
Proof. destruct b; reflexivity. Qed.
Lemma byte_back b : byte_of_N (Byte.to_N b) = b.
Proof. destruct b; reflexivity. Qed.
Lemma byte_value n : Byte.to_N (byte_of_N n) = n mod 256.
Proof.
  unfold byte_of_N. destruct (Byte.of_N (n mod 256)) as [b|] eqn:E; [apply Byte.to_of_N in E; exact E|]. apply Byte.of_N_None_iff in E. pose proof (N.mod_lt n 256). lia.
Qed.
Lemma be_snoc l b : be_value (l ++ [b]) = be_value l * 256 + Byte.to_N b.
Proof. unfold be_value. now rewrite fold_left_app. Qed.
Lemma div_pow fuel n : n < 2 ^ N.of_nat (S fuel) -> n / 256 < 2 ^ N.of_nat fuel.
Proof. intros H. apply N.div_lt_upper_bound; [lia|]. rewrite Nat2N.inj_succ, N.pow_succ_r' in H. lia. Qed.
Lemma be_fuel_value fuel : forall n, n < 2 ^ N.of_nat fuel -> be_value (be_fuel fuel n) = n.
Proof.
  induction fuel as [|fuel IH]; intros n H; cbn [be_fuel]; [cbn in H; cbn; lia|]. destruct (N.eqb_spec n 0) as [->|Z]; [reflexivity|].
  rewrite be_snoc, byte_value, IH by (apply div_pow; exact H). pose proof (N.div_mod n 256). lia.
Qed.
Lemma be_fuel_head fuel : forall n, n < 2 ^ N.of_nat fuel -> n <> 0 -> exists b l, be_fuel fuel n = b :: l /\ b <> x00.
Proof.
  induction fuel as [|fuel IH]; intros n H Z; cbn [be_fuel]; [cbn in H; lia|]. destruct (N.eqb_spec n 0) as [?|_]; [contradiction|].
  destruct (N.eq_dec (n / 256) 0) as [D|D].
  - rewrite D. replace (be_fuel fuel 0) with (@nil byte) by (destruct fuel; reflexivity). exists (byte_of_N n), []. split; [reflexivity|]. intros E. apply (f_equal Byte.to_N) in E. rewrite byte_value in E. change (Byte.to_N x00) with 0 in E. pose proof (N.div_mod n 256). lia.
  - destruct (IH (n / 256)) as (b & l & E & B); [apply div_pow; exact H|exact D|]. rewrite E. exists b, (l ++ [byte_of_N n]). split; [reflexivity|exact B].
Qed.
Definition headed (l : bytes) : Prop := match l with [] => True | b :: _ => b <> x00 end.
Lemma value_zero l : be_value l = 0 -> headed l -> l = [].
Proof.
  induction l as [|b l IH] using rev_ind; [reflexivity|]. rewrite be_snoc. intros V H. destruct l as [|c l].
  - cbn in H. exfalso. apply H. pose proof (byte_back b). rewrite <- H0. replace (Byte.to_N b) with 0 by lia. reflexivity.
  - exfalso. discriminate (IH ltac:(lia) H).
Qed.
Lemma be_unique l : forall fuel, be_value l < 2 ^ N.of_nat fuel -> headed l -> be_fuel fuel (be_value l) = l.
Proof.
  induction l as [|b l IH] using rev_ind; intros fuel V H; [destruct fuel; reflexivity|].
  assert (Z : be_value (l ++ [b]) <> 0) by (intros E; apply (value_zero _ E) in H; destruct l; discriminate H).
  destruct fuel as [|fuel]; [cbn in V; lia|]. cbn [be_fuel]. destruct (N.eqb_spec (be_value (l ++ [b])) 0) as [?|_]; [contradiction|].
  pose proof (div_pow _ _ V) as V'. rewrite be_snoc in *. pose proof (to_N_small b) as B.
  assert (Q : (be_value l * 256 + Byte.to_N b) / 256 = be_value l) by (rewrite N.div_add_l by lia; rewrite N.div_small by exact B; lia).
  rewrite Q in *. rewrite IH; [|exact V'|destruct l; [exact Logic.I|exact H]]. f_equal. f_equal.
  rewrite <- (byte_back b) at 2. unfold byte_of_N. rewrite N.add_comm, N.mod_add by lia. reflexivity.
Qed.
Lemma size_enough n : n < 2 ^ N.of_nat (N.to_nat (N.size n)).
Proof. rewrite N2Nat.id. apply N.size_gt. Qed.
Lemma be_bytes_value n : be_value (be_bytes n) = n.
Proof. apply be_fuel_value, size_enough. Qed.
Lemma be_bytes_headed n : headed (be_bytes n).
Proof. destruct (N.eq_dec n 0) as [->|Z]; [exact Logic.I|]. destruct (be_fuel_head _ n (size_enough n) Z) as (b & l & E & B). unfold be_bytes. rewrite E. exact B. Qed.
Lemma be_bytes_unique l : headed l -> be_bytes (be_value l) = l.
Proof. intros H. apply be_unique; [apply size_enough|exact H]. Qed.
Lemma value_from l : forall acc, fold_left (fun v b => v * 256 + Byte.to_N b) l acc = acc * 256 ^ N.of_nat (length l) + be_value l.
Proof.
  induction l as [|b l IH]; intros acc; [cbn; lia|]. unfold be_value. cbn [fold_left length]. rewrite !IH. rewrite Nat2N.inj_succ, N.pow_succ_r'. lia.
Qed.
Lemma value_cons b l : be_value (b :: l) = Byte.to_N b * 256 ^ N.of_nat (length l) + be_value l.
Proof. unfold be_value at 1. cbn [fold_left]. rewrite value_from. lia. Qed.
Lemma value_bound l : be_value l < 256 ^ N.of_nat (length l).
Proof.
  induction l as [|b l IH]; [reflexivity|]. rewrite value_cons. cbn [length]. rewrite Nat2N.inj_succ, N.pow_succ_r'. pose proof (to_N_small b). nia.
Qed.
Lemma nonzero b : b <> x00 -> 1 <= Byte.to_N b.
Proof. destruct b; intros H; try contradiction; vm_compute; discriminate. Qed.
Lemma pow_le a b : (a <= b)%nat -> 256 ^ N.of_nat a <= 256 ^ N.of_nat b.
Proof. intros H. apply N.pow_le_mono_r; lia. Qed.

Lemma eqb_neq a b : a <> b -> Byte.eqb a b = false.
Proof. intros H. destruct (Byte.eqb a b) eqn:E; [|reflexivity]. apply byte_eqb_eq in E. contradiction. Qed.

(** ** Numbers *)
Lemma int_forward z : (0 < z)%Z -> int_value (int_bytes z) = Some z.
Proof.
  intros P. destruct z as [|p|p]; try lia. cbn [int_bytes]. pose proof (be_bytes_value (Npos p)) as V. pose proof (be_bytes_headed (Npos p)) as H.
  destruct (be_bytes (Npos p)) as [|b l]; [discriminate V|]. cbn in H. destruct (high b) eqn:Hb.
  - unfold int_value. rewrite Hb. cbn [negb andb orb]. change (Byte.eqb x00 xff) with false. rewrite andb_false_r. cbn [andb orb]. change (high x00) with false. cbv iota.
    rewrite value_cons. change (Byte.to_N x00) with 0. rewrite N.mul_0_l, N.add_0_l. rewrite V. reflexivity.
  - unfold int_value. rewrite Hb, V. destruct l as [|c l]; [reflexivity|]. rewrite (eqb_neq b x00 H). cbn [andb orb]. destruct (Byte.eqb b xff) eqn:F; [apply byte_eqb_eq in F; subst b; discriminate Hb|]. reflexivity.
Qed.
Lemma int_backward l z : int_value l = Some z -> (0 < z)%Z -> l = int_bytes z.
Proof.
  unfold int_value. destruct l as [|a l]; [discriminate|].
  assert (Pos : forall z, (if high a then (Z.of_N (be_value (a :: l)) - 256 ^ Z.of_nat (length (a :: l)))%Z else Z.of_N (be_value (a :: l))) = z -> (0 < z)%Z -> high a = false /\ z = Z.of_N (be_value (a :: l))).
  { intros y E Y. destruct (high a); [|split; [reflexivity|symmetry; exact E]]. exfalso. pose proof (value_bound (a :: l)) as B. apply N2Z.inj_lt in B. rewrite N2Z.inj_pow in B. rewrite nat_N_Z in B. change (Z.of_N 256) with 256%Z in B. lia. }
  assert (Done : headed (a :: l) -> high a = false -> (0 < z)%Z -> z = Z.of_N (be_value (a :: l)) -> a :: l = int_bytes z).
  { intros H Ha P E. subst z. destruct (be_value (a :: l)) as [|p] eqn:V; [lia|]. cbn [Z.of_N int_bytes]. rewrite <- V, be_bytes_unique by exact H. now rewrite Ha. }
  destruct l as [|b l].
  - intros E P. injection E as E. destruct (Pos z E P) as [Ha Ez]. clear E Pos. apply Done; auto. cbn. intros ->. subst z. cbn in P. lia.
  - destruct ((Byte.eqb a x00 && negb (high b)) || (Byte.eqb a xff && high b)) eqn:C; [discriminate|]. apply orb_false_iff in C as [C _]. intros E P. injection E as E. destruct (Pos z E P) as [Ha Ez]. clear E Pos.
    destruct (Byte.eqb a x00) eqn:A.
    + apply byte_eqb_eq in A. subst a. cbn [andb] in C. apply negb_false_iff in C. rewrite value_cons in Ez. change (Byte.to_N x00) with 0 in Ez. rewrite N.mul_0_l, N.add_0_l in Ez. subst z.
      destruct (be_value (b :: l)) as [|p] eqn:V; [lia|]. cbn [Z.of_N int_bytes]. rewrite <- V, be_bytes_unique; [now rewrite C|]. cbn. intros ->. discriminate C.
    + apply Done; auto. cbn. intros ->. discriminate A.
Qed.
Lemma high_le b : high b = true <-> 128 <= Byte.to_N b.
Proof. unfold high. apply N.leb_le. Qed.
Lemma high_value b l : high b = true -> be_value (b :: l) >= 128 * 256 ^ N.of_nat (length l).
Proof. intros H. apply high_le in H. rewrite value_cons. nia. Qed.
Lemma short_int z : (0 < z)%Z -> ((length (int_bytes z) <= 8)%nat <-> (z < 2 ^ 63)%Z).
Proof.
  intros P. destruct z as [|p|p]; try lia. cbn [int_bytes]. pose proof (be_bytes_value (Npos p)) as V. pose proof (be_bytes_headed (Npos p)) as H. destruct (be_bytes (Npos p)) as [|b l]; [discriminate V|]. cbn in H.
  assert (Q : (Z.pos p < 2 ^ 63)%Z <-> be_value (b :: l) < 128 * 256 ^ 7) by (rewrite V; change (128 * 256 ^ 7) with (2 ^ 63); change (2 ^ 63)%Z with (Z.of_N (2 ^ 63)); change (Z.pos p) with (Z.of_N (Npos p)); lia).
  rewrite Q. clear Q V P. destruct (high b) eqn:Hb; cbn [length]; split; intros L.
  - pose proof (value_bound (b :: l)) as B. cbn [length] in B. pose proof (pow_le (S (length l)) 7 ltac:(lia)) as W. change (N.of_nat 7) with 7 in W. lia.
  - pose proof (high_value b l Hb) as B. destruct (Nat.le_gt_cases (S (S (length l))) 8) as [G|G]; [exact G|]. pose proof (pow_le 7 (length l) ltac:(lia)) as W. change (N.of_nat 7) with 7 in W. lia.
  - rewrite value_cons. pose proof (value_bound l) as B. pose proof (pow_le (length l) 7 ltac:(lia)) as W. change (N.of_nat 7) with 7 in W. assert (Byte.to_N b < 128) by (unfold high in Hb; apply N.leb_gt in Hb; exact Hb). nia.
  - pose proof (nonzero b H) as B. rewrite value_cons in L. destruct (Nat.le_gt_cases (S (length l)) 8) as [G|G]; [exact G|]. pose proof (pow_le 8 (length l) ltac:(lia)) as W. change (256 ^ N.of_nat 8) with (256 * 256 ^ 7) in W. nia.
Qed.
Lemma int_not_positive z : (z <= 0)%Z -> forall v, int_value (int_bytes z) = Some v -> (v <= 0)%Z.
Proof.
  intros P v. assert (G : forall b l, high b = true -> int_value (b :: l) = Some v -> (v <= 0)%Z).
  { intros b l Hb. pose proof (value_bound (b :: l)) as B. apply N2Z.inj_lt in B. rewrite N2Z.inj_pow, nat_N_Z in B. change (Z.of_N 256) with 256%Z in B. unfold int_value. rewrite Hb.
    assert (Q : (Z.of_N (be_value (b :: l)) - 256 ^ Z.of_nat (length (b :: l)) <= 0)%Z) by lia. revert Q. generalize (Z.of_N (be_value (b :: l)) - 256 ^ Z.of_nat (length (b :: l)))%Z. intros q Q.
    destruct l as [|c l]; [intros E; injection E as <-; lia|]. destruct (_ || _); [discriminate|]. intros E. injection E as <-. lia. }
  destruct z as [|p|p]; [|lia|]; cbn [int_bytes]; [intros E; vm_compute in E; injection E as <-; lia|].
  destruct (map _ _) as [|b l]; [apply G; reflexivity|]. destruct (high b) eqn:Hb; [apply G; exact Hb|apply G; reflexivity].
Qed.

(** ** Elements *)
Lemma len_loop_forward l : forall acc r, headed l \/ acc <> 0 -> acc * 256 ^ N.of_nat (length l) + be_value l < 2 ^ 31 -> 128 <= acc * 256 ^ N.of_nat (length l) + be_value l ->
  len_loop (length l) (l ++ r) acc = Some (acc * 256 ^ N.of_nat (length l) + be_value l, r).
Proof.
  induction l as [|b l IH]; intros acc r H U L.
  - cbn [length len_loop app] in *. change (be_value []) with 0 in *. change (256 ^ N.of_nat 0) with 1 in *. destruct (N.ltb_spec acc 128); [lia|]. f_equal. f_equal. lia.
  - cbn [length len_loop app]. rewrite value_cons in *. cbn [length] in *. rewrite Nat2N.inj_succ, N.pow_succ_r' in *. pose proof (N.pow_nonzero 256 (N.of_nat (length l)) ltac:(lia)) as Z.
    assert (A : acc < 8388608) by (change (2 ^ 31) with (8388608 * 256) in U; nia). destruct (N.leb_spec 8388608 acc); [lia|].
    assert (NZ : acc * 256 + Byte.to_N b <> 0) by (destruct H as [H|H]; [pose proof (nonzero b H); lia|lia]). cbv zeta. destruct (N.eqb_spec (acc * 256 + Byte.to_N b) 0) as [?|_]; [contradiction|].
    rewrite IH; [f_equal; f_equal; lia|right; exact NZ|lia|lia].
Qed.
Lemma len_loop_backward k : forall s acc n r, len_loop k s acc = Some (n, r) -> exists l, s = l ++ r /\ length l = k /\ n = acc * 256 ^ N.of_nat k + be_value l /\ 128 <= n /\ (acc = 0 -> headed l) /\ (k = O \/ n < 2 ^ 31).
Proof.
  induction k as [|k IH]; intros s acc n r; cbn [len_loop].
  - destruct (N.ltb_spec acc 128); [discriminate|]. intros E. injection E as <- <-. exists []. cbn. repeat split; auto; lia.
  - destruct s as [|b s]; [discriminate|]. destruct (N.leb_spec 8388608 acc) as [|A]; [discriminate|]. cbv zeta. destruct (N.eqb_spec (acc * 256 + Byte.to_N b) 0) as [|Z]; [discriminate|]. intros E.
    destruct (IH _ _ _ _ E) as (l & -> & L & V & M & H & B). exists (b :: l). split; [reflexivity|]. split; [cbn; lia|]. split; [rewrite value_cons, L, V, Nat2N.inj_succ, N.pow_succ_r'; lia|]. split; [exact M|].
    split; [intros -> Q; subst b; apply Z; reflexivity|]. right. destruct B as [->|B]; [|exact B]. destruct l; [|discriminate L]. change (256 ^ N.of_nat 0) with 1 in V. change (be_value []) with 0 in V. pose proof (to_N_small b). change (2 ^ 31) with (8388608 * 256). lia.
Qed.
Lemma be_short n : n < 2 ^ 31 -> (length (be_bytes n) <= 4)%nat.
Proof.
  intros L. pose proof (be_bytes_value n) as V. pose proof (be_bytes_headed n) as H. destruct (be_bytes n) as [|b l]; [cbn; lia|]. cbn in H. rewrite value_cons in V. pose proof (nonzero b H).
  destruct (Nat.le_gt_cases (length (b :: l)) 4) as [G|G]; [exact G|]. cbn [length] in G. pose proof (pow_le 4 (length l) ltac:(lia)) as W. change (256 ^ N.of_nat 4) with (2 * 2 ^ 31) in W. nia.
Qed.
Lemma len_forward n r : n < 2 ^ 31 -> read_len (len_bytes n ++ r) = Some (n, r).
Proof.
  intros L. unfold len_bytes. destruct (N.ltb_spec n 128) as [S|S].
  - cbn [app read_len]. rewrite byte_value. rewrite N.mod_small by lia. cbv zeta. destruct (N.ltb_spec n 128); [reflexivity|lia].
  - cbv zeta. cbn [app read_len]. rewrite byte_value. pose proof (be_short n L) as B. pose proof (be_bytes_value n) as V. assert (G : (0 < length (be_bytes n))%nat) by (destruct (be_bytes n); [cbn in V; lia|cbn; lia]).
    rewrite N.mod_small by lia. cbv zeta. destruct (N.ltb_spec (128 + N.of_nat (length (be_bytes n))) 128); [lia|]. destruct (N.eqb_spec (128 + N.of_nat (length (be_bytes n))) 128); [lia|].
    replace (N.to_nat (128 + N.of_nat (length (be_bytes n)) - 128)) with (length (be_bytes n)) by lia. rewrite len_loop_forward; rewrite ?N.mul_0_l, ?N.add_0_l, ?V; auto. left. apply be_bytes_headed.
Qed.
Lemma len_backward s n r : read_len s = Some (n, r) -> s = len_bytes n ++ r /\ n < 2 ^ 31.
Proof.
  destruct s as [|b s]; [discriminate|]. cbn [read_len]. cbv zeta. destruct (N.ltb_spec (Byte.to_N b) 128) as [S|S].
  - intros E. injection E as <- <-. unfold len_bytes. destruct (N.ltb_spec (Byte.to_N b) 128); [|lia]. rewrite byte_back. split; [reflexivity|]. change (2 ^ 31) with 2147483648. lia.
  - destruct (N.eqb_spec (Byte.to_N b) 128) as [|Z]; [discriminate|]. intros E. destruct (len_loop_backward _ _ _ _ _ E) as (l & -> & L & V & M & H & B). rewrite N.mul_0_l, N.add_0_l in V. split; [|destruct B as [B|B]; [lia|exact B]].
    unfold len_bytes. destruct (N.ltb_spec n 128); [lia|]. cbv zeta. rewrite V, be_bytes_unique by (apply H; reflexivity). cbn [app]. f_equal. rewrite L. replace (128 + N.of_nat (N.to_nat (Byte.to_N b - 128))) with (Byte.to_N b) by lia. symmetry. apply byte_back.
Qed.
Definition fits (c : bytes) : Prop := N.of_nat (length c) < 2 ^ 31.
Lemma element_iff tag s c r : read_element tag s = Some (c, r) <-> s = element tag c ++ r /\ fits c.
Proof.
  unfold read_element, element, fits. split.
  - destruct s as [|t s]; [discriminate|]. destruct (Byte.eqb t tag) eqn:T; [|discriminate]. apply byte_eqb_eq in T. subst t. destruct (read_len s) as [[n r0]|] eqn:E; [|discriminate]. apply len_backward in E as [-> B].
    destruct (N.ltb_spec (N.of_nat (length r0)) n) as [|L]; [discriminate|]. intros Q. injection Q as <- <-. rewrite firstn_length_le by lia. rewrite N2Nat.id. split; [|exact B]. cbn [app]. rewrite <- app_assoc, firstn_skipn. reflexivity.
  - intros [-> B]. cbn [app]. rewrite (proj2 (byte_eqb_eq tag tag) eq_refl), <- app_assoc, len_forward by exact B. rewrite app_length. destruct (N.ltb_spec (N.of_nat (length c + length r)) (N.of_nat (length c))); [lia|].
    rewrite Nat2N.id. rewrite firstn_app, Nat.sub_diag, firstn_all, skipn_app, Nat.sub_diag, skipn_all. cbn. now rewrite app_nil_r.
Qed.
Lemma element_all tag c : fits c -> read_element tag (element tag c) = Some (c, []).
Proof. intros F. apply element_iff. now rewrite app_nil_r. Qed.

(** ** Keys *)
Lemma begins_iff pre : forall s, begins pre s = true <-> exists x, s = pre ++ x.
Proof.
  induction pre as [|a pre IH]; intros s; [split; [exists s; reflexivity|reflexivity]|]. destruct s as [|b s]; cbn [begins]; [split; [discriminate|intros (x & E); discriminate E]|]. rewrite andb_true_iff, byte_eqb_eq, IH. split.
  - intros [-> (x & ->)]. exists x. reflexivity.
  - intros (x & E). injection E as -> ->. split; [reflexivity|exists x; reflexivity].
Qed.
Definition good (k : key) : Prop := (0 < modulus k)%Z /\ (0 < exponent k < 2 ^ 63)%Z.
Lemma rsa_key_iff s k : rsa_key s = Some k <-> good k /\ exists x, let c := element x02 (int_bytes (modulus k)) ++ element x02 (int_bytes (exponent k)) ++ x in s = element x30 c /\ fits c /\ fits (int_bytes (modulus k)).
Proof.
  unfold rsa_key, good. split.
  - destruct (read_element x30 s) as [[c [|]]|] eqn:E; try discriminate. apply element_iff in E as [-> F]. rewrite app_nil_r. destruct (read_element x02 c) as [[nb c1]|] eqn:E1; [|discriminate]. apply element_iff in E1 as [-> F1].
    destruct (int_value nb) as [n|] eqn:V1; [|discriminate]. destruct (read_element x02 c1) as [[eb c2]|] eqn:E2; [|discriminate]. apply element_iff in E2 as [-> F2]. destruct (int_value eb) as [e|] eqn:V2; [|discriminate].
    destruct (Nat.ltb_spec 8 (length eb)) as [|L]; [discriminate|]. destruct ((n <=? 0) || (e <=? 0))%Z eqn:P; [discriminate|]. apply orb_false_iff in P as [P1 P2]. apply Z.leb_gt in P1, P2. intros Q. injection Q as <-. cbn [modulus exponent].
    apply int_backward in V1; [|exact P1]. apply int_backward in V2; [|exact P2]. subst nb eb. split; [split; [exact P1|]; split; [exact P2|apply short_int; assumption]|]. exists c2. cbv zeta. auto.
  - destruct k as [n e]. cbn [modulus exponent]. intros ((P1 & P2 & P3) & x & -> & F & F1). rewrite element_all by exact F. rewrite (proj2 (element_iff x02 _ _ _) (conj eq_refl F1)). rewrite int_forward by exact P1.
    assert (L : (length (int_bytes e) <= 8)%nat) by (apply short_int; assumption). assert (F2 : fits (int_bytes e)) by (unfold fits; change (2 ^ 31) with 2147483648; lia).
    rewrite (proj2 (element_iff x02 _ _ _) (conj eq_refl F2)). rewrite int_forward by exact P2. destruct (Nat.ltb_spec 8 (length (int_bytes e))); [lia|]. destruct (Z.leb_spec n 0); [lia|]. destruct (Z.leb_spec e 0); [lia|]. reflexivity.
Qed.
Lemma from_der_iff s k : from_der s = Some k <-> good k /\ exists x y z bits t,
  let numbers := element x02 (int_bytes (modulus k)) ++ element x02 (int_bytes (exponent k)) ++ z in
  let all := element x30 (rsa_oid ++ null ++ x) ++ element x03 bits ++ y in
  s = element x30 all /\ bit_string bits = Some t /\ t = element x30 numbers /\ fits all /\ fits (rsa_oid ++ null ++ x) /\ fits bits /\ fits numbers /\ fits (int_bytes (modulus k)).
Proof.
  unfold from_der. split.
  - destruct (read_element x30 s) as [[c [|]]|] eqn:E; try discriminate. apply element_iff in E as [-> F]. rewrite app_nil_r. destruct (read_element x30 c) as [[alg c1]|] eqn:E1; [|discriminate]. apply element_iff in E1 as [-> F1].
    destruct (begins (rsa_oid ++ null) alg) eqn:B; [|discriminate]. apply begins_iff in B as (x & ->). destruct (read_element x03 c1) as [[bits y]|] eqn:E2; [|discriminate]. apply element_iff in E2 as [-> F2].
    destruct (bit_string bits) as [t|] eqn:T; [|discriminate]. intros R. apply rsa_key_iff in R as (G & z & Et & Fz & Fn). split; [exact G|]. exists x, y, z, bits, t. cbv zeta. rewrite <- app_assoc in *. auto 10.
  - intros (G & x & y & z & bits & t & -> & T & Et & F & F1 & F2 & Fz & Fn). rewrite element_all by exact F. rewrite (proj2 (element_iff x30 _ _ _) (conj eq_refl F1)).
    assert (B : begins (rsa_oid ++ null) (rsa_oid ++ null ++ x) = true) by (apply begins_iff; exists x; apply app_assoc). rewrite B. rewrite (proj2 (element_iff x03 _ _ _) (conj eq_refl F2)). rewrite T. apply rsa_key_iff. split; [exact G|]. exists z. cbv zeta. auto.
Qed.
Lemma bit_string_plain l : bit_string (x00 :: l) = Some l.
Proof. unfold bit_string. change (Byte.to_N x00) with 0. cbv zeta. change (7 <? 0) with false. change (0 <? 0) with false. change (2 ^ 0) with 1. rewrite N.mod_1_r. rewrite andb_false_r. reflexivity. Qed.
Lemma fits_part a b c : fits (a ++ b ++ c) -> fits b.
Proof. unfold fits. rewrite !app_length. lia. Qed.
Lemma fits_element tag c : fits (element tag c) -> fits c.
Proof. unfold element. intros F. change (tag :: len_bytes (N.of_nat (length c)) ++ c) with ([tag] ++ len_bytes (N.of_nat (length c)) ++ c) in F. unfold fits in *. rewrite !app_length in F. lia. Qed.
Lemma fits_app a b : fits (a ++ b) -> fits a /\ fits b.
Proof. unfold fits. rewrite app_length. lia. Qed.
Lemma der_back k : good k -> fits (to_der k) -> from_der (to_der k) = Some k.
Proof.
  intros G F. apply from_der_iff. split; [exact G|]. exists [], [], []. eexists _, _. cbv zeta. rewrite !app_nil_r. split; [reflexivity|]. split; [apply bit_string_plain|]. split; [reflexivity|].
  unfold to_der in F. apply fits_element in F. split; [exact F|]. apply fits_app in F as [F1 F2]. split; [apply fits_element in F1; exact F1|]. apply fits_element in F2. split; [exact F2|].
  apply (fits_app [x00]) in F2 as [_ F2]. apply fits_element in F2. split; [exact F2|]. apply fits_app in F2 as [F2 _]. apply fits_element in F2. exact F2.
Qed.
Lemma fits_parts k : fits (to_der k) -> let numbers := element x02 (int_bytes (modulus k)) ++ element x02 (int_bytes (exponent k)) in
  fits (element x30 (rsa_oid ++ null) ++ element x03 (x00 :: element x30 numbers)) /\ fits (rsa_oid ++ null) /\ fits (x00 :: element x30 numbers) /\ fits numbers /\ fits (int_bytes (modulus k)) /\ fits (int_bytes (exponent k)).
Proof.
  intros F. cbv zeta. unfold to_der in F. apply fits_element in F. split; [exact F|]. apply fits_app in F as [F1 F2]. split; [apply fits_element in F1; exact F1|]. apply fits_element in F2. split; [exact F2|].
  apply (fits_app [x00]) in F2 as [_ F2]. apply fits_element in F2. split; [exact F2|]. apply fits_app in F2 as [F2 F3]. split; [apply fits_element in F2; exact F2|apply fits_element in F3; exact F3].
Qed.
Lemma der_refused k : fits (to_der k) -> (modulus k <= 0 \/ exponent k <= 0)%Z -> from_der (to_der k) = None.
Proof.
  intros F B. destruct (fits_parts k F) as (F1 & F2 & F3 & F4 & F5 & F6). unfold from_der, to_der. rewrite element_all by exact F1. rewrite (proj2 (element_iff x30 _ _ _) (conj eq_refl F2)).
  change (begins (rsa_oid ++ null) (rsa_oid ++ null)) with true. cbv iota. rewrite element_all by exact F3. rewrite bit_string_plain. unfold rsa_key. rewrite element_all by exact F4. rewrite (proj2 (element_iff x02 _ _ _) (conj eq_refl F5)).
  destruct (int_value (int_bytes (modulus k))) as [n|] eqn:V1; [|reflexivity]. rewrite element_all by exact F6. destruct (int_value (int_bytes (exponent k))) as [e|] eqn:V2; [|reflexivity]. destruct (8 <? length (int_bytes (exponent k)))%nat; [reflexivity|].
  destruct B as [B|B].
  - pose proof (int_not_positive _ B _ V1). destruct (Z.leb_spec n 0); [reflexivity|lia].
  - pose proof (int_not_positive _ B _ V2). destruct (Z.leb_spec e 0); [|lia]. now rewrite orb_true_r.
Qed.
Lemma der_trailing s k x r : from_der s = Some k -> from_der (s ++ x :: r) = None.
Proof.
  intros H. apply from_der_iff in H as (_ & x1 & y & z & bits & t & -> & _ & _ & F & _). unfold from_der. rewrite (proj2 (element_iff x30 _ _ (x :: r)) (conj eq_refl F)). reflexivity.
Qed.
Lemma b64_plain l : filter (fun c => negb (Byte.eqb c x0a || Byte.eqb c x0d)) (b64_encode l) = b64_encode l.
Proof.
  pose proof (b64_encode_text l) as H. induction (b64_encode l) as [|c t IH]; [reflexivity|]. cbn [forallb] in H. apply andb_true_iff in H as [H1 H2]. cbn [filter]. rewrite IH by exact H2.
  replace (negb (Byte.eqb c x0a || Byte.eqb c x0d)) with true; [reflexivity|]. destruct c; try reflexivity; discriminate H1.
Qed.
(** Padding *)
Lemma shift_ring1 w h q m d prev v : prev = w * q + m -> v = w * h -> prev * h + d = v * q + (m * h + d).
Proof. intros -> ->. ring. Qed.
Lemma shift_ring2 w h m d bm b W vl v : b = w * d + bm -> v = w * h -> (m * h + d) * W * w + (bm * W + vl) = m * (v * W) + (b * W + vl).
Proof. intros -> ->. ring. Qed.
Lemma shift_value p : p <= 7 -> forall l prev, length (shift_bytes p prev l) = length l /\ be_value (shift_bytes p prev l) = (prev mod 2 ^ p * 256 ^ N.of_nat (length l) + be_value l) / 2 ^ p.
Proof.
  intros P. assert (Z : 2 ^ p <> 0) by (apply N.pow_nonzero; lia). assert (S : 256 = 2 ^ p * 2 ^ (8 - p)) by (rewrite <- N.pow_add_r; replace (p + (8 - p)) with 8 by lia; reflexivity).
  induction l as [|b l IH]; intros prev.
  - split; [reflexivity|]. change (be_value (shift_bytes p prev [])) with 0. change (be_value []) with 0. cbn [length]. change (256 ^ N.of_nat 0) with 1. pose proof (N.mod_lt prev (2 ^ p) Z). rewrite N.div_small by lia. reflexivity.
  - cbn [shift_bytes length]. destruct (IH (Byte.to_N b)) as [I1 I2]. split; [now rewrite I1|]. rewrite !value_cons, I1, I2, byte_value. pose proof (to_N_small b) as B. pose proof (N.div_mod (Byte.to_N b) (2 ^ p) Z) as D. pose proof (N.mod_lt prev (2 ^ p) Z) as M. pose proof (N.div_mod prev (2 ^ p) Z) as D'.
    assert (D2 : Byte.to_N b / 2 ^ p < 2 ^ (8 - p)) by (apply N.div_lt_upper_bound; [exact Z|]; rewrite <- S; exact B).
    assert (First : (prev * 2 ^ (8 - p) + Byte.to_N b / 2 ^ p) mod 256 = prev mod 2 ^ p * 2 ^ (8 - p) + Byte.to_N b / 2 ^ p).
    { symmetry. apply (N.mod_unique _ _ (prev / 2 ^ p)); [rewrite S; nia|]. exact (shift_ring1 _ _ _ _ _ _ _ D' S). }
    rewrite First. rewrite <- N.div_add_l by exact Z. f_equal. rewrite Nat2N.inj_succ, N.pow_succ_r'. exact (shift_ring2 _ _ _ _ _ _ _ _ _ D S).
Qed.
Lemma bits_iff c t : bit_string c = Some t <-> exists pb l, c = pb :: l /\ Byte.to_N pb <= 7 /\ (l = [] -> pb = x00) /\ length t = length l /\ be_value l = be_value t * 2 ^ Byte.to_N pb.
Proof.
  unfold bit_string. destruct c as [|pb l]; [split; [discriminate|intros (pb & l & E & _); discriminate E]|]. cbv zeta. set (p := Byte.to_N pb).
  assert (Last : p <= 7 -> Byte.to_N (last l x00) mod 2 ^ p = be_value l mod 2 ^ p).
  { intros P. assert (Z : 2 ^ p <> 0) by (apply N.pow_nonzero; lia). destruct (list_eq_dec Byte.byte_eq_dec l []) as [->|NE]; [reflexivity|]. destruct (exists_last NE) as (l' & b & ->). rewrite last_last, be_snoc.
    replace 256 with (2 ^ (8 - p) * 2 ^ p) by (rewrite <- N.pow_add_r; replace (8 - p + p) with 8 by lia; reflexivity). rewrite N.mul_assoc, N.add_comm, N.mod_add by exact Z. reflexivity. }
  assert (Align : p <= 7 -> length (right_align p l) = length l /\ be_value (right_align p l) = be_value l / 2 ^ p).
  { intros P. unfold right_align. destruct (N.eqb_spec p 0) as [->|_]; [split; [reflexivity|]; change (2 ^ 0) with 1; now rewrite N.div_1_r|]. destruct (shift_value p P l 0) as [A B]. split; [exact A|]. rewrite B. rewrite N.mod_0_l by (apply N.pow_nonzero; lia). now rewrite N.mul_0_l. }
  split.
  - destruct (N.ltb_spec 7 p) as [|P]; [discriminate|]. cbn [orb]. destruct ((length l =? 0)%nat && (0 <? p)) eqn:Em; [discriminate|]. cbn [orb]. destruct (N.eqb_spec (Byte.to_N (last l x00) mod 2 ^ p) 0) as [M|]; [|discriminate]. cbn [negb]. intros E. injection E as <-.
    exists pb, l. split; [reflexivity|]. split; [exact P|]. split.
    + intros ->. cbn [length Nat.eqb andb] in Em. apply N.ltb_ge in Em. rewrite <- (byte_back pb). fold p. replace p with 0 by lia. reflexivity.
    + destruct (Align P) as [A B]. split; [exact A|]. rewrite B. rewrite Last in M by exact P. pose proof (N.div_mod (be_value l) (2 ^ p) ltac:(apply N.pow_nonzero; lia)) as D. rewrite M, N.add_0_r, N.mul_comm in D. exact D.
  - intros (pb' & l' & E & P & Em & L & V). injection E as <- <-. fold p in P, V. destruct (N.ltb_spec 7 p); [lia|]. cbn [orb].
    replace ((length l =? 0)%nat && (0 <? p)) with false by (destruct l; [unfold p; rewrite (Em eq_refl); reflexivity|reflexivity]). cbn [orb]. rewrite Last by exact P. rewrite V at 1. rewrite N.mod_mul by (apply N.pow_nonzero; lia). cbn [N.eqb negb].
    f_equal. destruct (Align P) as [A B]. rewrite V, N.div_mul in B by (apply N.pow_nonzero; lia). rewrite <- L in A. revert A B. generalize (right_align p l). clear. induction t as [|b t IH] using rev_ind; intros u A B; [destruct u; [reflexivity|discriminate A]|].
    destruct (exists_last (l := u)) as (u' & c & ->); [intros ->; rewrite app_length in A; cbn in A; lia|]. rewrite !app_length in A. cbn [length] in A. rewrite !be_snoc in B. pose proof (to_N_small b). pose proof (to_N_small c). f_equal.
    + apply IH; lia.
    + f_equal. rewrite <- (byte_back b), <- (byte_back c). f_equal. lia.
Qed.
