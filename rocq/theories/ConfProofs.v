(** Proofs about ConfModel. *)
From Coq Require Import Strings.String Permutation.
From Verif Require Import Base BaseLemmas UtilModel UtilDuration DbModel LoadModel LoadProofs PolicyModel JsonText JsonTextProofs JsonParse JsonModel JsonProofs JsonRead JsonEvery JsonGrammar ApiText ApiTextProofs ConfModel.
Local Open Scope list_scope.
Local Notation b_ s := (list_byte_of_string s%string).

(** ** Times of day *)
Local Open Scope Z_scope.
Definition digit (c : byte) (x : Z) : Prop := exists i, nth_error (b_ "0123456789") i = Some c /\ x = Z.of_nat i.
Inductive two_text : bytes -> Z -> Prop := two_digits a b x y : digit a x -> digit b y -> two_text [a; b] (10 * x + y).
Inductive hour_text : bytes -> Z -> Prop :=
| hour_one a x : digit a x -> hour_text [a] x
| hour_two s n : two_text s n -> hour_text s n.
(** Digits with the weights w, w/10 and so on *)
Fixpoint weigh (w : Z) (xs : list Z) : Z := match xs with [] => 0 | x :: xs' => x * w + weigh (w / 10) xs' end.
Inductive frac_text : bytes -> Z -> Prop :=
| no_frac : frac_text [] 0
| some_frac c ds xs : In c (b_ ".,") -> ds <> [] -> Forall2 digit ds xs -> frac_text (c :: ds) (weigh (10 ^ 8) xs).
Definition spells_tod (s : bytes) (t : tod) : Prop :=
  exists hs h ms m ss sec fs n, s = hs ++ b_ ":" ++ ms ++ b_ ":" ++ ss ++ fs /\
    hour_text hs h /\ two_text ms m /\ two_text ss sec /\ frac_text fs n /\ h < 24 /\ m < 60 /\ sec < 60 /\
    t = mk_tod 0 (((h * 60 + m) * 60 + sec) * 10 ^ 9 + n).

Lemma digit_is c x : digit c x -> is_digit c = true /\ x = Z.of_N (Byte.to_N c - 48) /\ 0 <= x < 10.
Proof.
  intros (i & E & ->). do 10 (destruct i as [|i]; [injection E as <-; repeat split; cbn; lia|]). destruct i; discriminate E.
Qed.
Lemma is_digit_ex c : is_digit c = true -> digit c (Z.of_N (Byte.to_N c - 48)).
Proof.
  intros D. apply digit_iff in D. cbn in D.
  destruct D as [<-|[<-|[<-|[<-|[<-|[<-|[<-|[<-|[<-|[<-|[]]]]]]]]]]]; [exists 0%nat|exists 1%nat|exists 2%nat|exists 3%nat|exists 4%nat|exists 5%nat|exists 6%nat|exists 7%nat|exists 8%nat|exists 9%nat];
  split; reflexivity.
Qed.
Lemma value_two a b x y : digit a x -> digit b y -> Z.of_N (dec_value [a; b]) = 10 * x + y.
Proof. intros A B. destruct (digit_is _ _ A) as (_ & -> & _). destruct (digit_is _ _ B) as (_ & -> & _). cbn [dec_value fold_left]. lia. Qed.
Lemma value_one a x : digit a x -> Z.of_N (dec_value [a]) = x.
Proof. intros A. destruct (digit_is _ _ A) as (_ & -> & _). cbn [dec_value fold_left]. lia. Qed.
Lemma get_two fixed s n r : two_text s n -> get_num fixed (s ++ r) = Some (n, r).
Proof.
  intros T. destruct T as [a b x y A B]. cbn [app get_num]. destruct (digit_is _ _ A) as (-> & _). destruct (digit_is _ _ B) as (-> & _).
  now rewrite (value_two a b x y).
Qed.
Lemma get_hour s n r : hour_text s n -> (match r with c :: _ => is_digit c = false | [] => True end) -> get_num false (s ++ r) = Some (n, r).
Proof.
  intros T R. destruct T as [a x A|s n T]; [|now apply get_two]. cbn [app get_num]. destruct (digit_is _ _ A) as (-> & _). rewrite (value_one a x A).
  destruct r as [|c r]; [reflexivity|]. now rewrite R.
Qed.
Lemma got_two s n r : get_num true s = Some (n, r) -> exists t, s = t ++ r /\ two_text t n.
Proof.
  destruct s as [|a [|b s]]; cbn [get_num]; try discriminate; destruct (is_digit a) eqn:A; try discriminate.
  destruct (is_digit b) eqn:B; try discriminate. intros E. injection E as <- <-. apply is_digit_ex in A, B.
  exists [a; b]. split; [reflexivity|]. rewrite (value_two _ _ _ _ A B). now constructor.
Qed.
Lemma got_hour s n r : get_num false s = Some (n, r) -> exists t, s = t ++ r /\ hour_text t n.
Proof.
  destruct s as [|a s]; cbn [get_num]; try discriminate. destruct (is_digit a) eqn:A; try discriminate. apply is_digit_ex in A.
  destruct s as [|b s].
  - intros E. injection E as <- <-. exists [a]. split; [reflexivity|]. rewrite (value_one _ _ A). now constructor.
  - destruct (is_digit b) eqn:B; intros E; injection E as <- <-.
    + apply is_digit_ex in B. exists [a; b]. split; [reflexivity|]. apply hour_two. rewrite (value_two _ _ _ _ A B). now constructor.
    + exists [a]. split; [reflexivity|]. rewrite (value_one _ _ A). now constructor.
Qed.
Lemma dec_value_cons c p : dec_value (c :: p) = ((Byte.to_N c - 48) * 10 ^ N.of_nat (length p) + dec_value p)%N.
Proof. change (c :: p) with ([c] ++ p). rewrite dec_value_app. cbn [dec_value fold_left]. lia. Qed.
Lemma weigh_zero xs : weigh 0 xs = 0.
Proof. induction xs as [|x xs IH]; [reflexivity|]. cbn [weigh]. change (0 / 10) with 0. rewrite IH. lia. Qed.
Lemma weigh_value k : forall ds xs, Forall2 digit ds xs ->
  Z.of_N (dec_value (firstn (S k) ds)) * 10 ^ Z.of_nat (S k - length (firstn (S k) ds)) = weigh (10 ^ Z.of_nat k) xs.
Proof.
  induction k as [|k IH]; intros ds xs F; destruct F as [|c x ds xs D F]; try reflexivity.
  - cbn [firstn length Nat.sub]. cbn [weigh]. change (10 ^ Z.of_nat 0 / 10) with 0. rewrite weigh_zero, (value_one c x D), Z.add_0_r. reflexivity.
  - cbn [weigh]. replace (10 ^ Z.of_nat (S k) / 10) with (10 ^ Z.of_nat k).
    2: { rewrite Nat2Z.inj_succ, Z.pow_succ_r by lia. rewrite (Z.mul_comm 10), Z.div_mul by lia. reflexivity. }
    rewrite <- (IH ds xs F). change (firstn (S (S k)) (c :: ds)) with (c :: firstn (S k) ds). rewrite dec_value_cons.
    pose proof (firstn_le_length (S k) ds) as L. set (q := firstn (S k) ds) in *.
    destruct (digit_is _ _ D) as (_ & -> & _). cbn [length]. change (S (S k) - S (length q))%nat with (S k - length q)%nat.
    replace (Z.of_nat (S k)) with (Z.of_nat (length q) + Z.of_nat (S k - length q)) by lia.
    rewrite Z.pow_add_r by lia. rewrite N2Z.inj_add, N2Z.inj_mul, N2Z.inj_pow, nat_N_Z. lia.
Qed.
Lemma digits_two ds : forallb is_digit ds = true -> exists xs, Forall2 digit ds xs.
Proof.
  induction ds as [|c ds IH]; intros F; [exists []; constructor|]. cbn [forallb] in F. apply andb_prop in F as [A F]. destruct (IH F) as [xs X].
  exists (Z.of_N (Byte.to_N c - 48) :: xs). constructor; [now apply is_digit_ex|exact X].
Qed.
Lemma two_digits_all ds xs : Forall2 digit ds xs -> forallb is_digit ds = true.
Proof. intros F. induction F as [|c x ds xs D F IH]; [reflexivity|]. cbn [forallb]. destruct (digit_is _ _ D) as (-> & _). exact IH. Qed.
Lemma take_digits_split s p r : take_digits s = (p, r) -> s = p ++ r /\ forallb is_digit p = true.
Proof.
  revert p r. induction s as [|c s IH]; intros p r E; [injection E as <- <-; now split|]. cbn [take_digits] in E.
  destruct (is_digit c) eqn:D; [|injection E as <- <-; now split]. destruct (take_digits s) as [p' r'] eqn:T. injection E as <- <-.
  destruct (IH p' r' eq_refl) as [-> F]. split; [reflexivity|]. cbn [forallb]. now rewrite D.
Qed.
Lemma got_frac s n : get_fraction s = (n, []) -> frac_text s n.
Proof.
  destruct s as [|c s]; cbn [get_fraction]; [intros E; injection E as <-; constructor|].
  destruct s as [|d s]; [discriminate|]. destruct (Byte.eqb c x2e || Byte.eqb c x2c) eqn:C; [|discriminate]. destruct (is_digit d) eqn:D; [|discriminate].
  cbn [andb]. destruct (take_digits (d :: s)) as [p r] eqn:T. intros E. apply pair_equal_spec in E as [<- ->].
  apply take_digits_split in T as [T F]. rewrite app_nil_r in T. subst p. destruct (digits_two _ F) as [xs X].
  rewrite (weigh_value 8 _ xs X). change (10 ^ Z.of_nat 8) with (10 ^ 8). apply some_frac; [|discriminate|exact X].
  apply Bool.orb_true_iff in C as [C|C]; apply byte_eqb_eq in C; subst c; cbn; auto.
Qed.
Lemma get_frac s n : frac_text s n -> get_fraction s = (n, []).
Proof.
  intros T. destruct T as [|c ds xs C N X]; [reflexivity|]. destruct ds as [|d ds]; [contradiction|].
  pose proof (weigh_value 8 _ xs X) as W. pose proof (two_digits_all _ _ X) as F. cbn [get_fraction].
  assert (K : Byte.eqb c x2e || Byte.eqb c x2c = true) by (cbn in C; destruct C as [<-|[<-|[]]]; reflexivity). rewrite K.
  pose proof F as D. cbn [forallb] in D. apply andb_prop in D as [D _]. rewrite D. cbn [andb].
  rewrite <- (app_nil_r (d :: ds)) at 1. rewrite take_digits_app by auto. rewrite W. reflexivity.
Qed.
Lemma parse_tod_iff s t : parse_tod s = Some t <-> spells_tod s t.
Proof.
  split.
  - unfold parse_tod. destruct (get_num false s) as [[h s1]|] eqn:E1; [|discriminate]. cbn [obind]. destruct (Z.ltb_spec h 24) as [H|]; [|discriminate]. cbn [negb].
    destruct s1 as [|c s1]; [discriminate|]. cbn [take_char]. destruct (Byte.eqb c x3a) eqn:C; [|discriminate]. apply byte_eqb_eq in C. subst c. cbn [obind].
    destruct (get_num true s1) as [[m s2]|] eqn:E2; [|discriminate]. cbn [obind]. destruct (Z.ltb_spec m 60) as [M|]; [|discriminate]. cbn [negb].
    destruct s2 as [|c s2]; [discriminate|]. cbn [take_char]. destruct (Byte.eqb c x3a) eqn:C; [|discriminate]. apply byte_eqb_eq in C. subst c. cbn [obind].
    destruct (get_num true s2) as [[sec s3]|] eqn:E3; [|discriminate]. cbn [obind]. destruct (Z.ltb_spec sec 60) as [S|]; [|discriminate]. cbn [negb].
    destruct (get_fraction s3) as [n s4] eqn:E4. destruct s4; [|discriminate]. intros E. injection E as <-.
    apply got_hour in E1 as (hs & -> & T1). apply got_two in E2 as (ms & -> & T2). apply got_two in E3 as (ss & -> & T3). apply got_frac in E4.
    exists hs, h, ms, m, ss, sec, s3, n. repeat split; auto.
  - intros (hs & h & ms & m & ss & sec & fs & n & -> & T1 & T2 & T3 & T4 & H & M & S & ->). unfold parse_tod. cbn [app].
    change (b_ ":") with [x3a]. cbn [app].
    rewrite (get_hour _ _ _ T1) by reflexivity. cbn [obind]. rewrite (proj2 (Z.ltb_lt _ _) H). cbn [negb take_char]. rewrite byte_eqb_refl. cbn [obind].
    rewrite (get_two _ _ _ _ T2). cbn [obind]. rewrite (proj2 (Z.ltb_lt _ _) M). cbn [negb take_char]. rewrite byte_eqb_refl. cbn [obind].
    rewrite (get_two _ _ _ _ T3). cbn [obind]. rewrite (proj2 (Z.ltb_lt _ _) S). cbn [negb]. rewrite (get_frac _ _ T4). reflexivity.
Qed.

(** *** Writing *)
Lemma digit_of_pad x : 0 <= x < 10 -> digit (digit_byte (Z.to_N x)) x.
Proof.
  intros B. exists (Z.to_nat x). split; [|lia].
  assert (H : x = 0 \/ x = 1 \/ x = 2 \/ x = 3 \/ x = 4 \/ x = 5 \/ x = 6 \/ x = 7 \/ x = 8 \/ x = 9) by lia.
  repeat (destruct H as [->|H]; [reflexivity|]). subst. reflexivity.
Qed.
Lemma pad_two n : 0 <= n < 100 -> two_text (pad_digits 2 n) n.
Proof.
  intros B. cbn [pad_digits app]. replace n with (10 * (n / 10) + n mod 10) at 3 by (pose proof (Z.div_mod n 10); lia).
  rewrite (Z.mod_small (n / 10) 10) by (Z.to_euclidean_division_equations; lia).
  constructor; apply digit_of_pad; Z.to_euclidean_division_equations; lia.
Qed.
Lemma pad_split k j : forall n, pad_digits (k + j) n = pad_digits k (n / 10 ^ Z.of_nat j) ++ pad_digits j n.
Proof.
  induction j as [|j IH]; intros n.
  - rewrite Nat.add_0_r. change (10 ^ Z.of_nat 0) with 1. rewrite Z.div_1_r. cbn [pad_digits]. now rewrite app_nil_r.
  - rewrite Nat.add_succ_r. cbn [pad_digits]. rewrite IH, <- app_assoc. f_equal. f_equal.
    rewrite Nat2Z.inj_succ, Z.pow_succ_r by lia. rewrite Z.div_div by lia. reflexivity.
Qed.
Lemma pad_digit_list w : forall n, 0 <= n -> exists xs, Forall2 digit (pad_digits w n) xs.
Proof. intros n _. apply digits_two. apply pad_digits_ok. Qed.
(** [k] of the nine decimals suffice *)
Definition exact_in (n : Z) (k : nat) : Prop := n mod 10 ^ Z.of_nat (9 - k) = 0.
Lemma frac_written n k : 0 <= n < 10 ^ 9 -> (0 < k <= 9)%nat -> exact_in n k -> frac_text (x2e :: firstn k (pad_digits 9 n)) n.
Proof.
  intros N K X. unfold exact_in in X. replace 9%nat with (k + (9 - k))%nat at 1 by lia. rewrite pad_split. rewrite firstn_app, pad_length, Nat.sub_diag, app_nil_r.
  rewrite firstn_all2 by (rewrite pad_length; lia). set (m := n / 10 ^ Z.of_nat (9 - k)) in *.
  assert (P : 10 ^ 9 = 10 ^ Z.of_nat k * 10 ^ Z.of_nat (9 - k)) by (rewrite <- Z.pow_add_r by lia; f_equal; lia).
  assert (Q : 0 < 10 ^ Z.of_nat (9 - k)) by (apply Z.pow_pos_nonneg; lia).
  assert (E : n = m * 10 ^ Z.of_nat (9 - k)) by (unfold m; pose proof (Z.div_mod n (10 ^ Z.of_nat (9 - k))); lia).
  assert (M : 0 <= m < 10 ^ Z.of_nat k).
  { split; [apply Z.div_pos; lia|]. apply Z.div_lt_upper_bound; [lia|]. rewrite P in N. lia. }
  destruct (pad_digit_list k m (proj1 M)) as [xs W]. replace n with (weigh (10 ^ 8) xs).
  - apply some_frac; [cbn; auto| |exact W]. intros Z0. apply (f_equal (@length byte)) in Z0. rewrite pad_length in Z0. cbn in Z0. lia.
  - pose proof (weigh_value 8 _ _ W) as V. rewrite firstn_all2 in V by (rewrite pad_length; lia). rewrite pad_length, (pad_value k m M) in V.
    change (10 ^ Z.of_nat 8) with (10 ^ 8) in V. rewrite <- V. exact (eq_sym E).
Qed.
(** With two digits for the hour and [k] decimals after a point *)
Definition after_point (ds : bytes) : bytes := match ds with [] => [] | _ => b_ "." ++ ds end.
Definition layout (s : bytes) (k : nat) : Prop :=
  exists hs h ms m ss sec ds xs, s = hs ++ b_ ":" ++ ms ++ b_ ":" ++ ss ++ after_point ds /\
    two_text hs h /\ two_text ms m /\ two_text ss sec /\ Forall2 digit ds xs /\ length ds = k.
Lemma decimals_ok n : 0 <= n < 10 ^ 9 ->
  exists k, In k [0; 3; 6; 9]%nat /\ decimals 8 n 0 = Some (Z.of_nat k) /\ exact_in n k /\ (forall j, In j [0; 3; 6; 9]%nat -> exact_in n j -> (k <= j)%nat).
Proof.
  intros N. unfold exact_in. assert (R : forall a b, 0 <= a -> 0 < b -> Z.rem a b = a mod b) by (intros; apply Z.rem_mod_nonneg; lia).
  assert (J : forall j, In j [0; 3; 6; 9]%nat -> j = 0%nat \/ j = 3%nat \/ j = 6%nat \/ j = 9%nat) by (intros j I; cbn in I; intuition).
  destruct (Z.eq_dec n 0) as [->|N0].
  { exists 0%nat. split; [cbn; auto|]. split; [reflexivity|]. split; [reflexivity|]. intros; lia. }
  assert (P1 : (0 <? n) = true) by (apply Z.ltb_lt; lia).
  cbn [decimals]. rewrite P1. change (6 - 0) with 6. change (0 + 3) with 3. rewrite R by lia.
  assert (M0 : n mod 10 ^ Z.of_nat (9 - 0) <> 0) by (change (Z.of_nat (9 - 0)) with 9; rewrite Z.mod_small by lia; exact N0).
  destruct (Z.eq_dec (n mod 10 ^ 6) 0) as [M1|M1].
  { exists 3%nat. rewrite M1. split; [cbn; auto|]. split; [reflexivity|]. split; [exact M1|]. intros j I X. apply J in I as [->|[->|[->| ->]]]; [contradiction|lia..]. }
  assert (P2 : (0 <? n mod 10 ^ 6) = true) by (apply Z.ltb_lt; pose proof (Z.mod_pos_bound n (10 ^ 6)); lia).
  rewrite P2. change (6 - 3) with 3. change (3 + 3) with 6. rewrite R by (try apply Z.mod_pos_bound; lia).
  assert (E2 : (n mod 10 ^ 6) mod 10 ^ 3 = n mod 10 ^ 3).
  { change (10 ^ 6) with (10 ^ 3 * 10 ^ 3). rewrite Z.rem_mul_r by lia. rewrite (Z.mul_comm (10 ^ 3) (_ mod _)), Z.mod_add by lia. apply Z.mod_mod. lia. }
  rewrite E2. destruct (Z.eq_dec (n mod 10 ^ 3) 0) as [M2|M2].
  { exists 6%nat. rewrite M2. split; [cbn; auto|]. split; [reflexivity|]. split; [exact M2|]. intros j I X. apply J in I as [->|[->|[->| ->]]]; [contradiction|contradiction|lia..]. }
  assert (P3 : (0 <? n mod 10 ^ 3) = true) by (apply Z.ltb_lt; pose proof (Z.mod_pos_bound n (10 ^ 3)); lia).
  rewrite P3. change (6 - 6) with 0. change (6 + 3) with 9. change (10 ^ 0) with 1. rewrite Z.rem_1_r.
  exists 9%nat. split; [cbn; auto|]. split; [reflexivity|]. split; [apply Z.mod_1_r|]. intros j I X. apply J in I as [->|[->|[->| ->]]]; [contradiction|contradiction|contradiction|lia].
Qed.
Lemma layout_exact s k t : layout s k -> (k <= 9)%nat -> parse_tod s = Some t -> exact_in (td_ns t mod 10 ^ 9) k.
Proof.
  intros (hs & h & ms & m & ss & sec & ds & xs & -> & T1 & T2 & T3 & X & L) K P. unfold exact_in.
  assert (F : frac_text (after_point ds) (weigh (10 ^ 8) xs)).
  { destruct ds as [|d ds]; [inversion X; constructor|]. change (after_point (d :: ds)) with (x2e :: d :: ds). apply some_frac; [cbn; auto|discriminate|exact X]. }
  revert F P. generalize (after_point ds). intros fs F P.
  unfold parse_tod in P. change (b_ ":") with [x3a] in P. cbn [app] in P.
  rewrite (get_hour _ _ _ (hour_two _ _ T1)) in P by reflexivity. cbn [obind] in P. destruct (h <? 24); [|discriminate P]. cbn [negb take_char] in P. rewrite byte_eqb_refl in P. cbn [obind] in P.
  rewrite (get_two _ _ _ _ T2) in P. cbn [obind] in P. destruct (m <? 60); [|discriminate P]. cbn [negb take_char] in P. rewrite byte_eqb_refl in P. cbn [obind] in P.
  rewrite (get_two _ _ _ _ T3) in P. cbn [obind] in P. destruct (sec <? 60); [|discriminate P]. cbn [negb] in P. rewrite (get_frac _ _ F) in P. assert (E : t = mk_tod 0 (clock h m sec (weigh (10 ^ 8) xs))) by congruence. rewrite E. clear P E. cbn [td_ns].
  unfold clock, giga. set (a := (h * 60 + m) * 60 + sec). pose proof (weigh_value 8 ds xs X) as W. change (10 ^ Z.of_nat 8) with (10 ^ 8) in W.
  rewrite firstn_all2 in W by lia. rewrite L in W. rewrite <- W. set (v := Z.of_N (dec_value ds)).
  assert (Q : 10 ^ 9 = 10 ^ Z.of_nat (9 - k) * 10 ^ Z.of_nat k) by (rewrite <- Z.pow_add_r by lia; f_equal; lia).
  assert (Q1 : 0 < 10 ^ Z.of_nat (9 - k)) by (apply Z.pow_pos_nonneg; lia). assert (Q2 : 0 < 10 ^ Z.of_nat k) by (apply Z.pow_pos_nonneg; lia).
  change 1000000000 with (10 ^ 9). rewrite Q. rewrite Z.rem_mul_r by lia. rewrite (Z.mul_comm (10 ^ Z.of_nat (9 - k)) (_ mod _)), Z.mod_add by lia.
  rewrite Z.mod_mod by lia. replace (a * (10 ^ Z.of_nat (9 - k) * 10 ^ Z.of_nat k) + v * 10 ^ Z.of_nat (9 - k)) with ((a * 10 ^ Z.of_nat k + v) * 10 ^ Z.of_nat (9 - k)) by ring.
  apply Z.mod_mul. lia.
Qed.
Lemma tod_written t : 0 <= td_ns t < 24 * 3600 * 10 ^ 9 -> exists s k, tod_text t = Some s /\ spells_tod s (mk_tod 0 (td_ns t)) /\
  In k [0; 3; 6; 9]%nat /\ layout s k /\ exact_in (td_ns t mod 10 ^ 9) k /\ (forall j, In j [0; 3; 6; 9]%nat -> exact_in (td_ns t mod 10 ^ 9) j -> (k <= j)%nat).
Proof.
  intros B. unfold tod_text, giga. change 1000000000 with (10 ^ 9). set (secs := td_ns t / 10 ^ 9). set (n := td_ns t mod 10 ^ 9).
  assert (N : 0 <= n < 10 ^ 9) by (apply Z.mod_pos_bound; lia).
  assert (S : 0 <= secs < 86400) by (split; [apply Z.div_pos; lia|apply Z.div_lt_upper_bound; lia]).
  destruct (decimals_ok n N) as (k & I & -> & X & Min). cbn [obind].
  eexists. exists k. split; [reflexivity|].
  assert (T1 : two_text (pad_digits 2 (secs / 3600)) (secs / 3600)) by (apply pad_two; Z.to_euclidean_division_equations; lia).
  assert (T2 : two_text (pad_digits 2 (secs / 60 mod 60)) (secs / 60 mod 60)) by (apply pad_two; Z.to_euclidean_division_equations; lia).
  assert (T3 : two_text (pad_digits 2 (secs mod 60)) (secs mod 60)) by (apply pad_two; Z.to_euclidean_division_equations; lia).
  assert (K : k = 0%nat \/ (0 < k <= 9)%nat) by (cbn in I; lia).
  assert (D : (if 0 <? Z.of_nat k then x2e :: firstn (Z.to_nat (Z.of_nat k)) (pad_digits 9 n) else []) =
              match k with O => [] | _ => x2e :: firstn k (pad_digits 9 n) end).
  { rewrite Nat2Z.id. destruct k; [reflexivity|]. destruct (Z.ltb_spec 0 (Z.of_nat (Datatypes.S k))); [reflexivity|lia]. }
  rewrite D. assert (L : length (firstn k (pad_digits 9 n)) = k) by (rewrite firstn_length, pad_length; lia).
  destruct (digits_two (firstn k (pad_digits 9 n))) as [xs W].
  { pose proof (pad_digits_ok 9 n) as F. rewrite <- (firstn_skipn k (pad_digits 9 n)), forallb_app in F. now apply andb_prop in F as [F _]. }
  repeat split; auto.
  - exists (pad_digits 2 (secs / 3600)), (secs / 3600), (pad_digits 2 (secs / 60 mod 60)), (secs / 60 mod 60), (pad_digits 2 (secs mod 60)), (secs mod 60),
      (match k with O => [] | _ => x2e :: firstn k (pad_digits 9 n) end), n.
    split; [reflexivity|]. split; [now apply hour_two|]. split; [exact T2|]. split; [exact T3|]. split.
    { destruct K as [->|K]; [|destruct k; [lia|]; now apply frac_written]. unfold exact_in in X. change (Z.of_nat (9 - 0)) with 9 in X. rewrite Z.mod_small in X by lia. rewrite X. constructor. }
    split; [Z.to_euclidean_division_equations; lia|]. split; [apply Z.mod_pos_bound; lia|]. split; [apply Z.mod_pos_bound; lia|].
    f_equal. replace ((secs / 3600 * 60 + secs / 60 mod 60) * 60 + secs mod 60) with secs by (Z.to_euclidean_division_equations; lia).
    unfold secs, n. pose proof (Z.div_mod (td_ns t) (10 ^ 9)). lia.
  - exists (pad_digits 2 (secs / 3600)), (secs / 3600), (pad_digits 2 (secs / 60 mod 60)), (secs / 60 mod 60), (pad_digits 2 (secs mod 60)), (secs mod 60),
      (firstn k (pad_digits 9 n)), xs. repeat split; auto. destruct k; [reflexivity|]. destruct (firstn (Datatypes.S k) (pad_digits 9 n)); [discriminate L|reflexivity].
Qed.
Local Close Scope Z_scope.

(** ** Maps *)
Lemma find_set k v l : forall k', find_key k' (set_key k v l) = if beqb k' k then Some v else find_key k' l.
Proof.
  intros k'. induction l as [|[k2 v2] l IH]; [reflexivity|]. cbn [set_key]. destruct (beqb k k2) eqn:E.
  - apply beqb_eq in E. subst k2. cbn [find_key]. destruct (beqb k' k) eqn:E'; reflexivity.
  - cbn [find_key]. destruct (beqb k' k2) eqn:E'.
    + apply beqb_eq in E'. subst k2. destruct (beqb k' k) eqn:E2; [|reflexivity]. apply beqb_eq in E2. subst k'. rewrite beqb_refl in E. discriminate.
    + exact IH.
Qed.
Lemma find_in l : NoDup (map fst l) -> forall k v, find_key k l = Some v <-> In (k, v) l.
Proof.
  intros N k v. induction l as [|[k2 v2] l IH]; [split; [discriminate|intros []]|]. cbn [map fst] in N. inversion N as [|? ? N1 N2]. subst. cbn [find_key In].
  destruct (beqb k k2) eqn:E.
  - apply beqb_eq in E. subst k2. split; [intros Q; injection Q as ->; auto|]. intros [Q|Q]; [congruence|].
    exfalso. apply N1. apply (in_map fst) in Q. exact Q.
  - rewrite IH by exact N2. split; [auto|]. intros [Q|Q]; [|exact Q]. injection Q as -> ->. rewrite beqb_refl in E. discriminate.
Qed.
Lemma find_perm l l' : Permutation l l' -> NoDup (map fst l) -> forall k, find_key k l = find_key k l'.
Proof.
  intros P N k. assert (N' : NoDup (map fst l')) by (eapply Permutation_NoDup; [apply Permutation_map; exact P|exact N]).
  destruct (find_key k l) as [v|] eqn:E.
  - symmetry. apply (find_in l' N'). apply (Permutation_in _ P). now apply (find_in l N).
  - destruct (find_key k l') as [v|] eqn:E'; [|reflexivity]. apply (find_in l' N') in E'. apply (Permutation_in _ (Permutation_sym P)) in E'.
    apply (find_in l N) in E'. congruence.
Qed.
Lemma insert_pair_perm p l : Permutation (p :: l) (insert_pair p l).
Proof.
  induction l as [|q l IH]; [reflexivity|]. cbn [insert_pair]. destruct (bcmp (fst p) (fst q)); try reflexivity.
  rewrite perm_swap. now apply perm_skip.
Qed.
Lemma sort_pairs_perm l : Permutation l (sort_pairs l).
Proof. induction l as [|p l IH]; [reflexivity|]. cbn [sort_pairs fold_right]. rewrite <- insert_pair_perm. now apply perm_skip. Qed.
Definition set_all (l m : list (bytes * bytes)) : list (bytes * bytes) := fold_left (fun m kv => set_key (fst kv) (snd kv) m) l m.
Lemma read_pairs_json l : forall m, read_pairs (map (fun kv => (escape (fst kv), JStr (escape (snd kv)))) l) m =
  Some (set_all (map (fun kv => (repair (fst kv), repair (snd kv))) l) m).
Proof.
  induction l as [|[k v] l IH]; intros m; [reflexivity|]. cbn [map read_pairs fst snd read_string]. rewrite !unquote_escape. cbn [obind]. apply IH.
Qed.
Lemma find_set_all l : forall m k, NoDup (map fst l) -> find_key k (set_all l m) = match find_key k l with Some v => Some v | None => find_key k m end.
Proof.
  induction l as [|[k2 v2] l IH]; intros m k N; [reflexivity|]. cbn [map fst] in N. inversion N as [|? ? N1 N2]. subst.
  change (set_all ((k2, v2) :: l) m) with (set_all l (set_key k2 v2 m)). rewrite (IH _ _ N2), find_set. cbn [find_key].
  destruct (beqb k k2) eqn:E; [|reflexivity]. apply beqb_eq in E. subst k2. destruct (find_key k l) as [v|] eqn:F; [|reflexivity].
  exfalso. apply N1. apply (find_in l N2) in F. apply (in_map fst) in F. exact F.
Qed.
Definition n_map (m : gomap) : gomap := option_map (fun l => set_all (map (fun kv => (repair (fst kv), repair (snd kv))) (sort_pairs l)) []) m.
Lemma read_map_json m : read_map None (map_json m) = Some (n_map m).
Proof. destruct m as [l|]; [|reflexivity]. cbn [map_json read_map]. rewrite read_pairs_json. reflexivity. Qed.
(** The same map *)
Definition same_map (m m' : gomap) : Prop :=
  match m, m' with None, None => True | Some l, Some l' => forall k, find_key k l = find_key k l' | _, _ => False end.
Definition map_ok (m : gomap) : Prop :=
  match m with None => True | Some l => NoDup (map fst l) /\ Forall (fun kv => valid_utf8 (fst kv) /\ valid_utf8 (snd kv)) l end.
Lemma n_map_same m : map_ok m -> same_map (n_map m) m.
Proof.
  destruct m as [l|]; [|exact (fun _ => I)]. intros [N V] k. pose proof (sort_pairs_perm l) as P.
  assert (E : map (fun kv => (repair (fst kv), repair (snd kv))) (sort_pairs l) = sort_pairs l).
  { rewrite <- map_id. apply map_ext_in. intros [a b] Q. apply (Permutation_in _ (Permutation_sym P)) in Q. rewrite Forall_forall in V. destruct (V _ Q) as [A B].
    cbn [fst snd] in *. now rewrite !repair_valid. }
  rewrite E. rewrite find_set_all by (eapply Permutation_NoDup; [apply Permutation_map; exact P|exact N]).
  rewrite (find_perm _ _ P N k). now destruct (find_key k (sort_pairs l)).
Qed.
Lemma ok_map_json m : json_ok (map_json m).
Proof.
  destruct m as [l|]; [|exact I]. apply ok_obj. apply Forall_forall. intros kv Q. apply in_map_iff in Q as ([k v] & <- & _). split; apply raw_escape.
Qed.

(** ** The configuration *)
Ltac conf_state := unfold zero_db, zero_conf, with_d_dsn, with_d_name, with_d_values, with_d_check, with_c_urls, with_c_folders, with_c_db, with_c_cert, with_c_key,
    with_c_port, with_c_rows, with_c_at, with_c_timer;
  cbn [d_dsn d_name d_values d_check c_urls c_folders c_db c_cert c_key c_port c_rows c_at c_timer].
Ltac next g rd w := match goal with |- reads ?t (?x :: ?y :: ?l) _ _ => change (x :: y :: l) with ([x] ++ y :: l); eapply reads_app end;
  [eapply (reads_one _ _ g rd w); [reflexivity|reflexivity|]|]; conf_state.
Definition n_db (d : dbconf) : dbconf := mk_db (repair (d_dsn d)) (repair (d_name d)) (n_map (d_values d)) (d_check d).
Lemma read_string_json old s : read_string old (JStr (escape s)) = Some (repair s).
Proof. apply unquote_escape. Qed.
Lemma read_db d : read_struct db_table zero_db (db_json d) = Some (n_db d).
Proof.
  unfold db_json. cbn [read_struct]. match goal with |- read_members ?t ?l ?s = Some ?x => change (reads t l s x) end. destruct d as [a1 a2 a3 a4]. unfold n_db. conf_state.
  next d_dsn read_string with_d_dsn. { apply read_string_json. }
  next d_name read_string with_d_name. { apply read_string_json. }
  next d_values read_map with_d_values. { apply read_map_json. }
  apply (reads_one _ _ d_check read_bool with_d_check); reflexivity.
Qed.
Definition in_ranges (c : conf) : Prop :=
  (- 2 ^ 63 <= c_port c < 2 ^ 63 /\ 0 <= c_rows c < 2 ^ 64 /\ - 2 ^ 63 <= c_timer c < 2 ^ 63 /\ 0 <= td_ns (c_at c) < 24 * 3600 * 10 ^ 9)%Z.
Definition n_conf (c : conf) : conf :=
  mk_conf (option_map (map repair) (c_urls c)) (n_map (c_folders c)) (option_map n_db (c_db c)) (repair (c_cert c)) (repair (c_key c)) (c_port c) (c_rows c)
    (mk_tod 0 (td_ns (c_at c))) (c_timer c).
Lemma uint_ok z : (0 <= z < 2 ^ 64)%Z -> read_uint 0 (JNum (dec_Z z)) = Some z.
Proof.
  intros B. pose proof (int_of_dec z) as E. unfold dec_Z in *. destruct (Z.ltb_spec z 0); [lia|]. destruct (dec_N_cons (Z.to_N z)) as (c & s & D & C). rewrite D in *.
  cbn [read_uint]. cbn [int_of] in E. rewrite (digit_not_dash c C) in E. cbn [forallb] in *. destruct (is_digit c && forallb is_digit s); [|discriminate E].
  injection E as E. cbn [andb]. rewrite E. destruct (Z.ltb_spec z (2 ^ 64)); [reflexivity|lia].
Qed.
Lemma digit_ascii c : is_digit c = true -> ascii c = true.
Proof. unfold is_digit, ascii. intros D. apply andb_prop in D as [_ D]. apply N.leb_le in D. apply N.ltb_lt. lia. Qed.
Lemma digits_ascii s : forallb is_digit s = true -> forallb ascii s = true.
Proof. induction s as [|c s IH]; [reflexivity|]. cbn [forallb]. intros D. apply andb_prop in D as [A B]. now rewrite digit_ascii, IH. Qed.
Lemma repair_ascii s : forallb ascii s = true -> repair s = s.
Proof. intros A. apply repair_valid. now apply ascii_valid. Qed.
Lemma dec_Z_ascii z : forallb ascii (dec_Z z) = true.
Proof.
  assert (D : forall n, forallb is_digit (dec_N n) = true) by (intros n; unfold dec_N; rewrite forallb_rev; apply digits_rev_digits).
  unfold dec_Z. destruct (z <? 0)%Z; [cbn [forallb]; rewrite digits_ascii by apply D; reflexivity|apply digits_ascii, D].
Qed.
Lemma duration_ascii d : forallb ascii (fmt_duration d) = true.
Proof.
  unfold fmt_duration. destruct (Z.eqb d 0); [reflexivity|]. rewrite forallb_app, dec_Z_ascii. cbn [andb].
  match goal with |- forallb ascii (unit_bytes ?u) = true => destruct u; reflexivity end.
Qed.
Lemma tod_ascii s t : spells_tod s t -> forallb ascii s = true.
Proof.
  assert (D : forall c x, digit c x -> ascii c = true) by (intros c x C; apply digit_ascii; now apply digit_is in C).
  assert (T : forall s n, two_text s n -> forallb ascii s = true) by (intros s' n Q; destruct Q as [a b x y A B]; cbn [forallb]; now rewrite (D _ _ A), (D _ _ B)).
  intros (hs & h & ms & m & ss & sec & fs & n & -> & T1 & T2 & T3 & T4 & _). rewrite !forallb_app, (T _ _ T2), (T _ _ T3).
  assert (E1 : forallb ascii hs = true) by (destruct T1 as [a x A|? ? Q]; [cbn [forallb]; now rewrite (D _ _ A)|exact (T _ _ Q)]).
  assert (E2 : forallb ascii fs = true).
  { destruct T4 as [|c ds xs C _ X]; [reflexivity|]. cbn [forallb]. rewrite (digits_ascii ds (two_digits_all _ _ X)).
    cbn in C. destruct C as [<-|[<-|[]]]; reflexivity. }
  now rewrite E1, E2.
Qed.
Lemma read_urls_json u : read_urls None (match u with None => JNull | Some l => JArr (strings l) end) = Some (option_map (map repair) u).
Proof.
  destruct u as [l|]; [|reflexivity]. cbn [read_urls].
  assert (E : read_elements read_string [] [] (strings l) = Some (map repair l)).
  { apply read_elements_ok. unfold strings. induction l as [|x l IH]; constructor; [apply unquote_escape|exact IH]. }
  rewrite E. reflexivity.
Qed.
Lemma read_db_pointer d : read_pointer db_table zero_db None (match d with None => JNull | Some d => db_json d end) = Some (option_map n_db d).
Proof.
  destruct d as [d|]; [|reflexivity]. transitivity (option_map Some (read_struct db_table zero_db (db_json d))); [reflexivity|]. now rewrite read_db.
Qed.
Lemma read_conf_json c : in_ranges c -> exists v, conf_json c = Some v /\ read_struct conf_table zero_conf v = Some (n_conf c).
Proof.
  intros (Bp & Br & Bt & Ba). unfold conf_json. destruct (tod_written (c_at c) Ba) as (s & k & -> & Sp & _). cbn [obind]. eexists. split; [reflexivity|].
  pose proof (tod_ascii _ _ Sp) as As. apply parse_tod_iff in Sp.
  cbn [read_struct]. match goal with |- read_members ?t ?l ?s = Some ?x => change (reads t l s x) end. destruct c as [a1 a2 a3 a4 a5 a6 a7 a8 a9].
  unfold n_conf. conf_state. cbn [c_port c_rows c_timer c_at] in *.
  next c_urls read_urls with_c_urls. { apply read_urls_json. }
  next c_folders read_map with_c_folders. { apply read_map_json. }
  next c_db (read_pointer db_table zero_db) with_c_db.
  { apply read_db_pointer. }
  next c_cert read_string with_c_cert. { apply read_string_json. }
  next c_key read_string with_c_key. { apply read_string_json. }
  next c_port read_int with_c_port. { cbn [read_int]. rewrite int_of_dec. cbn [obind]. unfold int64.
    destruct (Z.leb_spec (- 2 ^ 63) a6); [|lia]. destruct (Z.ltb_spec a6 (2 ^ 63)); [|lia]. reflexivity. }
  next c_rows read_uint with_c_rows. { now apply uint_ok. }
  next c_at read_tod with_c_at. { unfold read_tod. rewrite read_string_json. cbn [obind]. rewrite (repair_ascii _ As). exact Sp. }
  apply (reads_one _ _ c_timer read_timer with_c_timer); [reflexivity|reflexivity|]. cbn [read_timer]. rewrite unquote_escape. cbn [obind].
  rewrite (repair_ascii _ (duration_ascii a9)). now apply duration_round_trip.
Qed.
Lemma ok_conf_json c v : conf_json c = Some v -> json_ok v.
Proof.
  unfold conf_json. destruct (tod_text (c_at c)) as [s|]; [|discriminate]. cbn [obind]. intros E.
  apply (f_equal (fun o => match o with Some x => x | None => JNull end)) in E. cbv beta iota in E. rewrite <- E. apply ok_obj.
  repeat (apply Forall_cons; [split; [apply raw_simple; reflexivity|]|]); try constructor; cbn [snd]; try apply raw_escape; try apply num_dec; try apply ok_map_json.
  - destruct (c_urls c) as [l|]; [|exact I]. apply ok_arr. apply ok_strings.
  - destruct (c_db c) as [d|]; [|exact I]. apply ok_obj.
    repeat (apply Forall_cons; [split; [apply raw_simple; reflexivity|first [apply raw_escape|apply ok_map_json|exact I]]|]). constructor.
Qed.
Lemma conf_reads c : in_ranges c -> exists text, write_conf (Some c) = Some text /\ read_conf text = Some (n_conf c).
Proof.
  intros R. destruct (read_conf_json c R) as (v & E & Rd). cbn [write_conf]. rewrite E. exists (print v). split; [reflexivity|].
  unfold read_conf. rewrite parse_print by now apply (ok_conf_json c). exact Rd.
Qed.
(** The same configuration: maps by their entries *)
Definition same_db (d d' : dbconf) : Prop :=
  d_dsn d = d_dsn d' /\ d_name d = d_name d' /\ same_map (d_values d) (d_values d') /\ d_check d = d_check d'.
Definition same_conf (c c' : conf) : Prop :=
  c_urls c = c_urls c' /\ same_map (c_folders c) (c_folders c') /\
  match c_db c, c_db c' with None, None => True | Some d, Some d' => same_db d d' | _, _ => False end /\
  c_cert c = c_cert c' /\ c_key c = c_key c' /\ c_port c = c_port c' /\ c_rows c = c_rows c' /\ c_at c = c_at c' /\ c_timer c = c_timer c'.
Definition utf8_db (d : dbconf) : Prop := valid_utf8 (d_dsn d) /\ valid_utf8 (d_name d) /\ map_ok (d_values d).
Definition utf8_conf (c : conf) : Prop :=
  match c_urls c with Some l => Forall valid_utf8 l | None => True end /\ map_ok (c_folders c) /\
  match c_db c with Some d => utf8_db d | None => True end /\ valid_utf8 (c_cert c) /\ valid_utf8 (c_key c).
Lemma n_conf_same c : utf8_conf c -> td_days (c_at c) = 0%Z -> same_conf (n_conf c) c.
Proof.
  intros (U1 & U2 & U3 & U4 & U5) D. destruct c as [a1 a2 a3 a4 a5 a6 a7 [dd ns] a9]. unfold same_conf, n_conf. cbn [c_urls c_folders c_db c_cert c_key c_port c_rows c_at c_timer td_ns td_days] in *.
  subst dd. repeat split; try (now apply repair_valid); try (now apply n_map_same).
  - destruct a1 as [l|]; [|reflexivity]. cbn [option_map]. f_equal. rewrite <- (map_id l) at 2. apply map_ext_in. intros x X. apply repair_valid. rewrite Forall_forall in U1. now apply U1.
  - destruct a3 as [[b1 b2 b3 b4]|]; [|exact I]. destruct U3 as (V1 & V2 & V3). unfold same_db. cbn [option_map n_db d_dsn d_name d_values d_check] in *.
    repeat split; try (now apply repair_valid). now apply n_map_same.
Qed.
Lemma conf_round_trip c : in_ranges c -> utf8_conf c -> td_days (c_at c) = 0%Z ->
  exists text c', write_conf (Some c) = Some text /\ read_conf text = Some c' /\ same_conf c' c.
Proof. intros R U D. destruct (conf_reads c R) as (text & W & E). exists text, (n_conf c). repeat split; auto; now apply n_conf_same. Qed.

(** ** Indented text *)
Lemma chars_of_raw k : raw_ok k -> chars k.
Proof. intros R. pose proof (R []) as E. apply (scanned_chars (S (length (k ++ [dquote])))) in E; [|lia]. apply E. Qed.
Lemma number_of_num t : num_ok t -> number t.
Proof. intros [_ R]. pose proof (R [] I) as E. apply scanned_number in E. apply E. Qed.
Lemma blank_line d : blank (new_line d).
Proof.
  unfold new_line. constructor; [cbn; auto|]. apply Forall_forall. intros c Q. apply repeat_spec in Q. subst c. cbn. auto.
Qed.
Definition element_line (d : nat) (v : json) : bytes := new_line (S d) ++ indented (S d) v.
Definition member_line (d : nat) (kv : bytes * json) : bytes := new_line (S d) ++ quoted (fst kv) ++ x3a :: x20 :: indented (S d) (snd kv).
Lemma indented_arr d v l : indented d (JArr (v :: l)) = x5b :: commas (map (element_line d) (v :: l)) ++ new_line d ++ [x5d].
Proof.
  reflexivity.
Qed.
Lemma indented_obj d kv l : indented d (JObj (kv :: l)) = x7b :: commas (map (member_line d) (kv :: l)) ++ new_line d ++ [x7d].
Proof.
  assert (E : forall l, (fix go l := match l with [] => []
      | (k, x) :: l' => (new_line (S d) ++ quoted k ++ x3a :: x20 :: indented (S d) x) :: go l' end) l = map (member_line d) l).
  { clear. induction l as [|[k x] l IH]; [reflexivity|]. cbn [map]. now rewrite <- IH. }
  rewrite <- (E (kv :: l)). destruct kv as [k v]. reflexivity.
Qed.
Lemma element_lines d l : Forall (fun v => forall d, is_value (indented d v) v) l -> l <> [] ->
  elements (commas (map (element_line d) l) ++ new_line d) l.
Proof.
  intros F. induction F as [|v l V F IH]; [contradiction|]. intros _. destruct l as [|w l].
  - cbn [map commas]. unfold element_line. rewrite <- app_assoc. apply e_one; [apply blank_line|apply V|apply blank_line].
  - change (commas (map (element_line d) (v :: w :: l))) with (element_line d v ++ x2c :: commas (map (element_line d) (w :: l))).
    unfold element_line at 1. rewrite <- !app_assoc. apply (e_more _ _ []); [apply blank_line|apply V|constructor|]. apply IH. discriminate.
Qed.
Lemma member_lines d l : Forall (fun kv => chars (fst kv) /\ forall d, is_value (indented d (snd kv)) (snd kv)) l -> l <> [] ->
  members (commas (map (member_line d) l) ++ new_line d) l.
Proof.
  intros F. induction F as [|[k v] l [K V] F IH]; [contradiction|]. cbn [fst snd] in *. intros _. destruct l as [|w l].
  - cbn [map commas]. unfold member_line, quoted, dquote. cbn [fst snd].
    replace ((new_line (S d) ++ (x22 :: k ++ [x22]) ++ x3a :: x20 :: indented (S d) v) ++ new_line d) with
      (new_line (S d) ++ x22 :: k ++ x22 :: [] ++ b_ ":" ++ [x20] ++ indented (S d) v ++ new_line d).
    2: { rewrite <- !app_assoc. f_equal. change (b_ ":") with [x3a]. cbn [app]. f_equal. rewrite <- !app_assoc. f_equal. }
    apply m_one; auto; try apply blank_line; try (constructor; [cbn; auto|constructor]). constructor.
  - change (commas (map (member_line d) ((k, v) :: w :: l))) with (member_line d (k, v) ++ x2c :: commas (map (member_line d) (w :: l))).
    unfold member_line at 1. unfold quoted, dquote. cbn [fst snd].
    replace (((new_line (S d) ++ (x22 :: k ++ [x22]) ++ x3a :: x20 :: indented (S d) v) ++ x2c :: commas (map (member_line d) (w :: l))) ++ new_line d) with
      (new_line (S d) ++ x22 :: k ++ x22 :: [] ++ b_ ":" ++ [x20] ++ indented (S d) v ++ [] ++ b_ "," ++ commas (map (member_line d) (w :: l)) ++ new_line d).
    2: { rewrite <- !app_assoc. f_equal. change (b_ ":") with [x3a]. change (b_ ",") with [x2c]. cbn [app]. f_equal. rewrite <- !app_assoc. reflexivity. }
    apply m_more; auto; try apply blank_line; try (constructor; [cbn; auto|constructor]); try constructor. apply IH. discriminate.
Qed.
Lemma indented_value v : json_ok v -> forall d, is_value (indented d v) v.
Proof.
  induction v as [| b | t | r | l IH | l IH] using json_ind'; intros K d.
  - constructor.
  - destruct b; constructor.
  - apply v_num. now apply number_of_num.
  - apply v_str. now apply chars_of_raw.
  - destruct l as [|v l]; [apply (v_no_elements []); constructor|]. rewrite indented_arr.
    change (is_value (b_ "[" ++ commas (map (element_line d) (v :: l)) ++ new_line d ++ b_ "]") (JArr (v :: l))). rewrite (app_assoc (commas _)). apply v_array.
    apply element_lines; [|discriminate]. apply ok_arr in K. clear d. induction IH as [|w l' W F IH']; constructor; inversion K; auto.
  - destruct l as [|kv l]; [apply (v_no_members []); constructor|]. rewrite indented_obj.
    change (is_value (b_ "{" ++ commas (map (member_line d) (kv :: l)) ++ new_line d ++ b_ "}") (JObj (kv :: l))). rewrite (app_assoc (commas _)). apply v_object.
    apply member_lines; [|discriminate]. apply ok_obj in K. clear d. induction IH as [|w l' W F IH']; constructor; inversion K as [|? ? [K1 K2] K3]; subst; auto. split; auto. now apply chars_of_raw.
Qed.
Lemma parse_indented v : json_ok v -> parse (indented 0 v) = Some v.
Proof.
  intros K. apply parse_iff. exists [], (indented 0 v), []. rewrite app_nil_r. split; [reflexivity|]. split; [constructor|]. split; [now apply indented_value|constructor].
Qed.

(** ** The configuration of the PCA *)
Definition n_log (l : log_conf) : log_conf := mk_log (repair (l_name l)) (repair (l_url l)) (n_slice (l_key l)).
Definition n_pca (p : pca_conf) : pca_conf := mk_pca (repair (pc_name p)) (map n_log (pc_logs p)) (n_slice (pc_key p)) (n_slice (pc_cert p)).
Lemma read_log l : read_struct log_table zero_log (log_json l) = Some (n_log l).
Proof.
  unfold log_json. cbn [read_struct]. match goal with |- read_members ?t ?l ?s = Some ?x => change (reads t l s x) end. destruct l as [a1 a2 a3]. unfold n_log. cbn [l_name l_url l_key].
  eapply reads_app; [apply (reads_string _ _ l_name with_l_name); reflexivity|]. eapply reads_app; [apply (reads_string _ _ l_url with_l_url); reflexivity|].
  apply (reads_slice _ _ l_key with_l_key); reflexivity.
Qed.
Lemma read_pca_json p : read_struct pca_table zero_pca (pca_json p) = Some (n_pca p).
Proof.
  unfold pca_json. cbn [read_struct]. match goal with |- read_members ?t ?l ?s = Some ?x => change (reads t l s x) end. destruct p as [a1 a2 a3 a4]. unfold n_pca. cbn [pc_name pc_logs pc_key pc_cert].
  eapply reads_app; [apply (reads_string _ _ pc_name with_pc_name); reflexivity|].
  eapply reads_app.
  { apply (reads_list _ _ pc_logs with_pc_logs (read_struct log_table) zero_log _ (map n_log a2)); try reflexivity.
    induction a2 as [|l a2 IH]; constructor; [apply read_log|exact IH]. }
  eapply reads_app; [apply (reads_slice _ _ pc_key with_pc_key); reflexivity|].
  apply (reads_slice _ _ pc_cert with_pc_cert); reflexivity.
Qed.
Lemma ok_pca_json p : json_ok (pca_json p).
Proof.
  unfold pca_json. apply ok_obj. change (members_ok (string_member (b_ "CAName") (pc_name p) ++ list_member (b_ "CTLogServers") (map log_json (pc_logs p)) ++
        slice_member (b_ "KeyPEM") (pc_key p) ++ slice_member (b_ "CertJSON") (pc_cert p))).
  repeat apply members_app; [apply ok_string|apply ok_list|apply ok_slice|apply ok_slice]; try reflexivity.
  apply Forall_forall. intros v Q. apply in_map_iff in Q as (l & <- & _). unfold log_json. apply ok_obj.
  change (members_ok (string_member (b_ "Name") (l_name l) ++ string_member (b_ "URL") (l_url l) ++ slice_member (b_ "PublicKeyDER") (l_key l))).
  repeat apply members_app; [apply ok_string|apply ok_string|apply ok_slice]; reflexivity.
Qed.
Lemma pca_reads p : read_pca zero_pca (write_pca p) = Some (n_pca p).
Proof. unfold read_pca, write_pca. rewrite parse_indented by apply ok_pca_json. apply read_pca_json. Qed.
Lemma n_pca_same p : valid_utf8 (pc_name p) -> Forall (fun l => valid_utf8 (l_name l) /\ valid_utf8 (l_url l) /\ l_key l <> Some []) (pc_logs p) ->
  pc_key p <> Some [] -> pc_cert p <> Some [] -> n_pca p = p.
Proof.
  assert (S : forall s : slice, s <> Some [] -> n_slice s = s) by (intros [[|c b]|] N; try reflexivity; contradiction).
  destruct p as [a1 a2 a3 a4]. unfold n_pca. cbn [pc_name pc_logs pc_key pc_cert]. intros V F K C. rewrite repair_valid by exact V. rewrite !S by assumption. f_equal.
  rewrite <- (map_id a2) at 2. apply map_ext_in. intros [b1 b2 b3] I. rewrite Forall_forall in F. destruct (F _ I) as (V1 & V2 & V3). cbn [l_name l_url l_key] in *.
  unfold n_log. cbn [l_name l_url l_key]. now rewrite !repair_valid, S.
Qed.

(** ** Missing and unknown members *)
Definition no_member (name : bytes) (l : list (bytes * json)) : Prop := forall k v x, In (k, v) l -> unquote k = Some x -> fold_name x <> fold_name name.
Lemma entry_in {S} name (t : table S) f : entry_of name t = Some f -> exists n, In (n, f) t /\ fold_name n = fold_name name.
Proof.
  induction t as [|[n g] t IH]; [discriminate|]. cbn [entry_of]. destruct (beqb (fold_name n) (fold_name name)) eqn:E.
  - intros Q. injection Q as ->. apply beqb_eq in E. exists n. split; [now left|exact E].
  - intros Q. destruct (IH Q) as (m & I & F). exists m. split; [now right|exact F].
Qed.
Lemma missing_member {S A} (g : S -> A) name (t : table S) :
  Forall (fun e => fold_name (fst e) <> fold_name name -> forall v s s', snd e v s = Some s' -> g s' = g s) t ->
  forall l s s', no_member name l -> read_members t l s = Some s' -> g s' = g s.
Proof.
  intros T l. induction l as [|[k v] l IH]; intros s s' N R; [cbn in R; congruence|]. cbn [read_members] in R.
  destruct (unquote k) as [x|] eqn:U; [|discriminate R]. cbn [obind] in R.
  assert (N' : no_member name l) by (intros k' v' x' I; apply (N k' v' x'); now right).
  destruct (entry_of x t) as [f|] eqn:E.
  - destruct (f v s) as [s1|] eqn:F; [|discriminate R]. cbn [obind] in R. rewrite (IH _ _ N' R).
    apply entry_in in E as (n & I & Q). rewrite Forall_forall in T. apply (T (n, f) I) with (v := v); auto. cbn [fst]. rewrite Q. apply (N k v x); [now left|exact U].
  - cbn [obind] in R. exact (IH _ _ N' R).
Qed.
Lemma frame_entry {S A B} (g : S -> A) n (get : S -> B) read put : (forall x s, g (put x s) = g s) ->
  forall v s s', snd (entry n get read put) v s = Some s' -> g s' = g s.
Proof. intros P v s s'. unfold entry. cbn [snd]. destruct (read (get s) v) as [x|]; [|discriminate]. intros E. injection E as <-. apply P. Qed.
Ltac frames := repeat (apply Forall_cons; [match goal with
    | |- fold_name (fst (entry ?a _ _ _)) <> fold_name ?a -> _ => intros D; exfalso; exact (D eq_refl)
    | |- _ => intros _; apply frame_entry; reflexivity end|]); apply Forall_nil.
Lemma unknown_member {S} (t : table S) k v x l1 l2 s : unquote k = Some x -> Forall (fun e => fold_name (fst e) <> fold_name x) t ->
  read_members t (l1 ++ (k, v) :: l2) s = read_members t (l1 ++ l2) s.
Proof.
  intros U F. rewrite !read_app. destruct (read_members t l1 s) as [s1|]; [|reflexivity]. cbn [obind read_members]. rewrite U. cbn [obind].
  assert (E : entry_of x t = None).
  { clear U. induction F as [|[n f] t N F IH]; [reflexivity|]. cbn [entry_of]. cbn [fst] in N. apply beqb_neq in N. now rewrite N. }
  rewrite E. reflexivity.
Qed.
Lemma two_length s n : two_text s n -> length s = 2.
Proof. intros []. reflexivity. Qed.
Lemma layout_length s k : layout s k -> length s = match k with O => 8 | S _ => 9 + k end.
Proof.
  intros (hs & h & ms & m & ss & sec & ds & xs & -> & T1 & T2 & T3 & _ & L). rewrite !app_length, (two_length _ _ T1), (two_length _ _ T2), (two_length _ _ T3).
  change (length (b_ ":")) with 1. destruct ds as [|d ds]; [subst k; reflexivity|]. change (after_point (d :: ds)) with (x2e :: d :: ds).
  destruct k; [discriminate L|]. rewrite <- L. cbn [length]. lia.
Qed.

(** null, for any names of the members *)
Lemma null_member n1 n2 n3 n4 n5 n6 n7 n8 n9 x : fold_name n8 <> fold_name x ->
  obind (match entry_of x [entry n1 c_urls read_urls with_c_urls; entry n2 c_folders read_map with_c_folders; entry n3 c_db (read_pointer db_table zero_db) with_c_db;
    entry n4 c_cert read_string with_c_cert; entry n5 c_key read_string with_c_key; entry n6 c_port read_int with_c_port; entry n7 c_rows read_uint with_c_rows;
    entry n8 c_at read_tod with_c_at; entry n9 c_timer read_timer with_c_timer] with None => Some zero_conf | Some f => f JNull zero_conf end) (fun s => Some s) = Some zero_conf.
Proof.
  intros N. apply beqb_neq in N. unfold entry. cbn [entry_of]. rewrite N. repeat (match goal with |- context [beqb (fold_name ?n) (fold_name x)] => destruct (beqb (fold_name n) (fold_name x)) end; [reflexivity|]). reflexivity.
Qed.
