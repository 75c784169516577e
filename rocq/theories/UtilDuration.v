(** Durations: printing and parsing are inverse; what the parser accepts. Times of day. *)
From Coq Require Import ZArith Lia.
From Verif Require Import Base BaseLemmas UtilModel.

Lemma digit_byte_N n : (n < 10)%N -> Byte.to_N (digit_byte n) = (48 + n)%N.
Proof.
  intros Hn. unfold digit_byte. assert (Hc : (n = 0 \/ n = 1 \/ n = 2 \/ n = 3 \/ n = 4 \/ n = 5 \/ n = 6 \/ n = 7 \/ n = 8 \/ n = 9)%N) by lia.
  repeat destruct Hc as [->|Hc]; try reflexivity. subst. reflexivity.
Qed.
Lemma digit_byte_is n : (n < 10)%N -> is_digit (digit_byte n) = true.
Proof.
  intros Hn. unfold is_digit. rewrite digit_byte_N by exact Hn. apply andb_true_intro. split; apply N.leb_le; lia.
Qed.

Definition value_rev (l : bytes) : N := fold_right (fun b acc => acc * 10 + (Byte.to_N b - 48))%N 0%N l.
Lemma dec_value_rev l : dec_value (rev l) = value_rev l.
Proof. unfold dec_value, value_rev. rewrite <- fold_left_rev_right, rev_involutive. reflexivity. Qed.
Lemma digits_rev_value fuel : forall n, (n < 10 ^ N.of_nat fuel)%N -> value_rev (digits_rev fuel n) = n.
Proof.
  induction fuel as [|f IH]; intros n Hn.
  - cbn in *. lia.
  - rewrite Nat2N.inj_succ, N.pow_succ_r' in Hn. cbn [digits_rev value_rev fold_right].
    assert (Hm : (n mod 10 < 10)%N) by (apply N.mod_lt; lia). rewrite digit_byte_N by exact Hm.
    assert (Hd : (n = 10 * (n / 10) + n mod 10)%N) by (apply N.div_mod; lia).
    destruct (N.ltb_spec n 10) as [Hl|Hl].
    + cbn [fold_right]. rewrite N.mod_small by exact Hl. lia.
    + specialize (IH (n / 10)%N ltac:(apply N.div_lt_upper_bound; lia)). unfold value_rev in IH. rewrite IH.
      revert Hd Hm. generalize (n / 10)%N (n mod 10)%N. intros q r Hd Hm. lia.
Qed.
Lemma digits_rev_digits fuel : forall n, forallb is_digit (digits_rev fuel n) = true.
Proof.
  induction fuel as [|f IH]; intros n; [reflexivity|]. cbn [digits_rev forallb].
  rewrite digit_byte_is by (apply N.mod_lt; lia). destruct (N.ltb n 10); [reflexivity | apply IH].
Qed.
Lemma forallb_rev {A} (p : A -> bool) l : forallb p (rev l) = forallb p l.
Proof.
  induction l as [|x l IH]; [reflexivity|]. cbn [rev forallb]. rewrite forallb_app, IH. cbn. rewrite andb_true_r. apply andb_comm.
Qed.
Lemma dec_N_value n : dec_value (dec_N n) = n.
Proof.
  unfold dec_N. rewrite dec_value_rev. apply digits_rev_value. rewrite Nat2N.inj_succ, N2Nat.id.
  destruct (N.eq_dec n 0) as [->|Hn]; [reflexivity|].
  apply N.lt_le_trans with (2 ^ N.succ (N.log2 n))%N; [apply N.log2_spec; lia|]. apply N.pow_le_mono_l. lia.
Qed.
Lemma dec_N_digits n : forallb is_digit (dec_N n) = true.
Proof. unfold dec_N. rewrite forallb_rev. apply digits_rev_digits. Qed.
Lemma dec_N_cons n : exists c s, dec_N n = c :: s /\ is_digit c = true.
Proof.
  pose proof (dec_N_digits n) as Hd. destruct (dec_N n) as [|c s] eqn:Hq.
  - unfold dec_N in Hq. cbn [digits_rev rev] in Hq. destruct (rev _); discriminate.
  - exists c, s. split; [reflexivity|]. cbn in Hd. apply andb_prop in Hd. apply Hd.
Qed.
Lemma digit_not_dash c : is_digit c = true -> Byte.eqb c x2d = false.
Proof.
  intros Hd. destruct (Byte.eqb c x2d) eqn:He; [|reflexivity]. apply byte_eqb_eq in He. subst. discriminate.
Qed.

Lemma atoi_dec z : in_int64 z -> atoi_value (dec_Z z) = z.
Proof.
  unfold in_int64. intros Hz. unfold dec_Z. destruct (Z.ltb_spec z 0) as [Hl|Hl].
  - unfold atoi_value. cbn [Byte.eqb]. destruct (dec_N_cons (Z.to_N (- z))) as (c & s & Hq & _).
    change (Byte.eqb x2d x2d) with true. cbv iota. rewrite dec_N_digits, dec_N_value. rewrite Hq. unfold clamp64. lia.
  - destruct (dec_N_cons (Z.to_N z)) as (c & s & Hq & Hc). unfold atoi_value. rewrite Hq, (digit_not_dash c Hc), <- Hq.
    rewrite dec_N_digits, dec_N_value. unfold clamp64. lia.
Qed.

Definition num_char (c : byte) : bool := is_digit c || Byte.eqb c x2d.
Lemma dec_Z_num z : forallb num_char (dec_Z z) = true.
Proof.
  assert (Hn : forall n, forallb num_char (dec_N n) = true).
  { intros n. apply forallb_forall. intros c Hc. pose proof (dec_N_digits n) as Hd. rewrite forallb_forall in Hd.
    unfold num_char. rewrite (Hd c Hc). reflexivity. }
  unfold dec_Z. destruct (Z.ltb z 0); [|apply Hn]. cbn [forallb]. rewrite Hn. reflexivity.
Qed.
Lemma dec_Z_cons z : exists c s, dec_Z z = c :: s.
Proof. unfold dec_Z. destruct (Z.ltb z 0); [eauto|]. destruct (dec_N_cons (Z.to_N z)) as (c & s & -> & _). eauto. Qed.
Lemma number_prefix_app p r : forallb num_char p = true -> (match r with [] => True | c :: _ => num_char c = false end) ->
  number_prefix (p ++ r) = (p, r).
Proof.
  intros Hp Hr. induction p as [|c p IH]; cbn [app].
  - destruct r as [|c r]; [reflexivity|]. cbn [number_prefix]. unfold num_char in Hr. rewrite Hr. reflexivity.
  - cbn [forallb] in Hp. apply andb_prop in Hp as [Hc Hp]. cbn [number_prefix]. unfold num_char in Hc. rewrite Hc, IH by exact Hp. reflexivity.
Qed.
Lemma number_prefix_spec s : forall p r, number_prefix s = (p, r) ->
  s = p ++ r /\ forallb num_char p = true /\ (match r with [] => True | c :: _ => num_char c = false end).
Proof.
  induction s as [|c s IH]; intros p r; cbn [number_prefix].
  - intros Hq. injection Hq as <- <-. auto.
  - destruct (is_digit c || Byte.eqb c x2d) eqn:Hc.
    + destruct (number_prefix s) as [p' r'] eqn:Hn. intros Hq. injection Hq as <- <-.
      destruct (IH _ _ eq_refl) as (-> & Hp & Hr). split; [reflexivity|]. split; [|exact Hr]. cbn [forallb]. unfold num_char at 1. rewrite Hc, Hp. reflexivity.
    + intros Hq. injection Hq as <- <-. split; [reflexivity|]. split; [reflexivity | exact Hc].
Qed.

Lemma int64_wrap_id z : in_int64 z -> int64_wrap z = z.
Proof. unfold in_int64, int64_wrap. intros Hz. rewrite Z.mod_small by lia. lia. Qed.

Lemma parse_print z u : in_int64 z -> parse_duration (dec_Z z ++ unit_bytes u) = Some (int64_wrap (z * unit_ns u)).
Proof.
  intros Hz. unfold parse_duration. rewrite number_prefix_app.
  - destruct (dec_Z_cons z) as (c & s & Hq). rewrite Hq, <- Hq, (atoi_dec z Hz). destruct u; reflexivity.
  - apply dec_Z_num.
  - destruct u; reflexivity.
Qed.

Theorem duration_round_trip d : in_int64 d -> parse_duration (fmt_duration d) = Some d.
Proof.
  intros Hd. unfold fmt_duration. destruct (Z.eqb_spec d 0) as [->|Hn]; [reflexivity|].
  set (u := if Z.eqb (Z.rem d (unit_ns Uy)) 0 then Uy else _).
  assert (Hu : Z.rem d (unit_ns u) = 0%Z).
  { unfold u. repeat match goal with |- context [if Z.eqb ?a 0 then _ else _] => destruct (Z.eqb_spec a 0); [assumption|] end.
    cbn [unit_ns]. apply Z.rem_1_r. }
  clearbody u. cbv zeta.
  assert (Hp : (0 < unit_ns u)%Z) by (destruct u; cbn; lia).
  assert (Hq : (d = unit_ns u * Z.quot d (unit_ns u))%Z) by (pose proof (Z.quot_rem' d (unit_ns u)); lia).
  rewrite parse_print.
  - rewrite Z.mul_comm, <- Hq, int64_wrap_id by exact Hd. reflexivity.
  - unfold in_int64 in *. set (q := Z.quot d (unit_ns u)) in *. nia.
Qed.

(** What the parser accepts. *)
Theorem parse_duration_shape s d : parse_duration s = Some d -> exists p u,
  s = p ++ u /\ p <> [] /\ (forall c, In c p -> is_digit c = true \/ c = x2d) /\
  (u = [xc2; xb5; x73] \/ exists n, u = unit_bytes n).
Proof.
  unfold parse_duration. destruct (number_prefix s) as [p r] eqn:Hn. apply number_prefix_spec in Hn as (-> & Hp & _).
  destruct p as [|c p]; [discriminate|]. destruct (parse_unit r) as [u|] eqn:Hu; [|discriminate]. intros _.
  exists (c :: p), r. split; [reflexivity|]. split; [discriminate|]. split.
  - intros x Hx. rewrite forallb_forall in Hp. specialize (Hp x Hx). apply orb_prop in Hp as [Hp|Hp]; [auto|].
    right. apply byte_eqb_eq. exact Hp.
  - unfold parse_unit in Hu. destruct (beqb_spec r [xc2; xb5; x73]) as [->|Hne]; [auto|]. right.
    apply find_some in Hu as [_ Hu]. apply beqb_eq in Hu. eauto.
Qed.
(** Well-formed numbers in range get their value. *)
Theorem parse_duration_value z u : in_int64 z -> in_int64 (z * unit_ns u) ->
  parse_duration (dec_Z z ++ unit_bytes u) = Some (z * unit_ns u)%Z.
Proof. intros Hz Hm. rewrite parse_print, int64_wrap_id by assumption. reflexivity. Qed.

(** ** Next time of day *)
Theorem next_tod_ok t0 tod now : (0 <= tod < day_ns)%Z -> (t0 < now)%Z ->
  let r := next_time_of_day t0 tod now 0 in
  (now <= r < now + day_ns)%Z /\ (r mod day_ns = tod)%Z.
Proof.
  intros Ht Hn. unfold next_time_of_day. destruct (Z.leb_spec now t0); [lia|]. rewrite Z.add_0_r.
  assert (Hdp : (0 < day_ns)%Z) by reflexivity.
  pose proof (Z.div_mod now day_ns ltac:(lia)) as Hdm. pose proof (Z.mod_pos_bound now day_ns Hdp) as Hb.
  set (q := (now / day_ns)%Z) in *. set (m := (now mod day_ns)%Z) in *. cbv zeta.
  assert (Hm : forall k, ((k * day_ns + tod) mod day_ns = tod)%Z).
  { intros k. rewrite Z.add_comm, Z.mod_add by lia. apply Z.mod_small. exact Ht. }
  destruct (Z.leb_spec now (q * day_ns + tod)).
  - split; [lia | apply Hm].
  - split; [lia|]. replace (q * day_ns + tod + day_ns)%Z with ((q + 1) * day_ns + tod)%Z by lia. apply Hm.
Qed.
(** With a zone offset the wall clock of the result is right in UTC, and it is never more than a day and the offset away. *)
Theorem next_tod_offset t0 tod now off : (0 <= tod < day_ns)%Z -> (t0 < now)%Z -> (- day_ns < off < day_ns)%Z ->
  let r := next_time_of_day t0 tod now off in
  (now - Z.abs off <= r < now + 2 * day_ns)%Z /\ (r mod day_ns = tod)%Z.
Proof.
  intros Ht Hn Ho. unfold next_time_of_day. destruct (Z.leb_spec now t0); [lia|].
  assert (Hdp : (0 < day_ns)%Z) by reflexivity.
  pose proof (Z.div_mod (now + off) day_ns ltac:(lia)) as Hdm. pose proof (Z.mod_pos_bound (now + off) day_ns Hdp) as Hb.
  set (q := ((now + off) / day_ns)%Z) in *. set (m := ((now + off) mod day_ns)%Z) in *. cbv zeta.
  assert (Hm : forall k, ((k * day_ns + tod) mod day_ns = tod)%Z).
  { intros k. rewrite Z.add_comm, Z.mod_add by lia. apply Z.mod_small. exact Ht. }
  destruct (Z.leb_spec now (q * day_ns + tod)).
  - split; [lia | apply Hm].
  - split; [lia|]. replace (q * day_ns + tod + day_ns)%Z with ((q + 1) * day_ns + tod)%Z by lia. apply Hm.
Qed.
