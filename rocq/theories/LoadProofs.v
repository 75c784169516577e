(** What LOAD DATA reads is what was written. *)
From Coq Require Import Lia.
From Verif Require Import Base BaseLemmas UtilModel UtilDuration DbModel LoadModel.

(** ** Base64 *)
Definition b64_codes : list N := map N.of_nat (seq 0 64).
Lemma b64_char_value n : (n < 64)%N -> b64_value (b64_char n) = Some n.
Proof.
  intros Hn. assert (Hall : forallb (fun n => match b64_value (b64_char n) with Some m => N.eqb n m | None => false end) b64_codes = true) by (vm_compute; reflexivity).
  rewrite forallb_forall in Hall. assert (Hin : In n b64_codes).
  { unfold b64_codes. rewrite in_map_iff. exists (N.to_nat n). split; [lia|]. apply in_seq. lia. }
  specialize (Hall n Hin). destruct (b64_value (b64_char n)) as [m|]; [|discriminate]. apply N.eqb_eq in Hall. congruence.
Qed.
Lemma b64_char_not_pad n : (n < 64)%N -> Byte.eqb (b64_char n) b64_pad = false.
Proof.
  intros Hn. assert (Hall : forallb (fun n => negb (Byte.eqb (b64_char n) b64_pad)) b64_codes = true) by (vm_compute; reflexivity).
  rewrite forallb_forall in Hall. assert (Hin : In n b64_codes).
  { unfold b64_codes. rewrite in_map_iff. exists (N.to_nat n). split; [lia|]. apply in_seq. lia. }
  specialize (Hall n Hin). destruct (Byte.eqb _ _); [discriminate | reflexivity].
Qed.
Lemma byte_of_to (a : byte) n : (n mod 256 = Byte.to_N a)%N -> byte_of_N n = a.
Proof. intros Hn. unfold byte_of_N. rewrite Hn, Byte.of_to_N. reflexivity. Qed.
Lemma to_N_lt (a : byte) : (Byte.to_N a < 256)%N.
Proof. pose proof (Byte.to_N_bounded a). lia. Qed.
Ltac euclid := zify; Z.to_euclidean_division_equations; lia.
Lemma b64_round_trip l : b64_decode (b64_encode l) = Some l.
Proof.
  assert (Hind : forall k l, length l <= k -> b64_decode (b64_encode l) = Some l).
  { clear l. induction k as [|k IH]; intros l Hl; [destruct l; [reflexivity | cbn in Hl; lia]|].
    destruct l as [|a [|b [|c l]]]; [reflexivity | | |].
    - pose proof (to_N_lt a) as Ha. cbn [b64_encode]. set (v := Byte.to_N a) in *. cbn [b64_decode].
      rewrite !b64_char_value by euclid. change (Byte.eqb b64_pad b64_pad) with true. cbv iota.
      f_equal. f_equal. apply byte_of_to. fold v. euclid.
    - pose proof (to_N_lt a) as Ha. pose proof (to_N_lt b) as Hb. cbn [b64_encode]. set (va := Byte.to_N a) in *. set (vb := Byte.to_N b) in *.
      cbv zeta. cbn [b64_decode]. rewrite !b64_char_value by euclid. rewrite b64_char_not_pad by euclid. change (Byte.eqb b64_pad b64_pad) with true. cbv iota.
      f_equal. f_equal; [|f_equal]; apply byte_of_to; [fold va | fold vb]; euclid.
    - pose proof (to_N_lt a) as Ha. pose proof (to_N_lt b) as Hb. pose proof (to_N_lt c) as Hc.
      cbn [b64_encode]. set (va := Byte.to_N a) in *. set (vb := Byte.to_N b) in *. set (vc := Byte.to_N c) in *.
      cbv zeta. cbn [b64_decode]. rewrite !b64_char_value by euclid. rewrite !b64_char_not_pad by euclid. cbv iota.
      rewrite IH by (cbn in Hl; lia). f_equal. f_equal; [|f_equal; [|f_equal]]; apply byte_of_to; [fold va | fold vb | fold vc]; euclid. }
  exact (Hind (length l) l (le_n _)).
Qed.
(** The characters of base64 text *)
Definition b64_text (c : byte) : bool := existsb (Byte.eqb c) (b64_pad :: b64_alphabet).
Lemma b64_char_text n : (n < 64)%N -> b64_text (b64_char n) = true.
Proof.
  intros Hn. assert (Hall : forallb (fun n => b64_text (b64_char n)) b64_codes = true) by (vm_compute; reflexivity).
  rewrite forallb_forall in Hall. apply Hall. unfold b64_codes. rewrite in_map_iff. exists (N.to_nat n). split; [lia|]. apply in_seq. lia.
Qed.
Lemma b64_encode_text l : forallb b64_text (b64_encode l) = true.
Proof.
  assert (Hp : b64_text b64_pad = true) by reflexivity.
  assert (Hind : forall k l, length l <= k -> forallb b64_text (b64_encode l) = true).
  { clear l. induction k as [|k IH]; intros l Hl; [destruct l; [reflexivity | cbn in Hl; lia]|].
    destruct l as [|a [|b [|c l]]]; [reflexivity | | |].
    - pose proof (to_N_lt a) as Ha. cbn [b64_encode forallb]. cbv zeta. rewrite !b64_char_text, !Hp by euclid. reflexivity.
    - pose proof (to_N_lt a) as Ha. pose proof (to_N_lt b) as Hb. cbn [b64_encode forallb]. cbv zeta. cbn [forallb]. rewrite !b64_char_text, !Hp by euclid. reflexivity.
    - pose proof (to_N_lt a) as Ha. pose proof (to_N_lt b) as Hb. pose proof (to_N_lt c) as Hc.
      cbn [b64_encode]. cbv zeta. cbn [forallb]. rewrite !b64_char_text by euclid. rewrite IH by (cbn in Hl; lia). reflexivity. }
  exact (Hind (length l) l (le_n _)).
Qed.
Lemma b64_length l : length (b64_encode l) = 4 * ((length l + 2) / 3).
Proof.
  assert (Hind : forall k l, length l <= k -> length (b64_encode l) = 4 * ((length l + 2) / 3)).
  { clear l. induction k as [|k IH]; intros l Hl; [destruct l; [reflexivity | cbn in Hl; lia]|].
    destruct l as [|a [|b [|c l]]]; [reflexivity | reflexivity | reflexivity |].
    cbn [b64_encode]. cbv zeta. cbn [length]. rewrite IH by (cbn in Hl; lia).
    replace (S (S (S (length l))) + 2) with (length l + 2 + 1 * 3) by lia. rewrite Nat.div_add by lia. lia. }
  exact (Hind (length l) l (le_n _)).
Qed.
Lemma from_b64 l : from_base64 (b64_encode l) = Some l.
Proof.
  unfold from_base64. replace (filter _ (b64_encode l)) with (b64_encode l); [apply b64_round_trip|].
  pose proof (b64_encode_text l) as Ht. induction (b64_encode l) as [|c s IH]; [reflexivity|].
  cbn [forallb] in Ht. apply andb_prop in Ht as [Hc Ht]. cbn [filter].
  assert (Hs : is_space c = false).
  { unfold b64_text in Hc. apply existsb_exists in Hc as (x & Hx & Hq). apply byte_eqb_eq in Hq. subst x. clear - Hx.
    assert (Hall : forallb (fun c => negb (is_space c)) (b64_pad :: b64_alphabet) = true) by reflexivity.
    rewrite forallb_forall in Hall. specialize (Hall c Hx). destruct (is_space c); [discriminate | reflexivity]. }
  rewrite Hs. cbn [negb]. f_equal. apply IH. exact Ht.
Qed.

(** ** Dates *)
Local Open Scope Z_scope.
Lemma civil_bounds doe : 0 <= doe < 146097 ->
  let yoe := (doe - doe / 1460 + doe / 36524 - doe / 146096) / 365 in
  let doy := doe - (365 * yoe + yoe / 4 - yoe / 100) in
  0 <= yoe < 400 /\ 0 <= doy <= 365.
Proof. intros Hd. cbv zeta. Z.to_euclidean_division_equations. lia. Qed.
Lemma civil_leap doe : 0 <= doe < 146097 ->
  let yoe := (doe - doe / 1460 + doe / 36524 - doe / 146096) / 365 in
  let doy := doe - (365 * yoe + yoe / 4 - yoe / 100) in
  doy = 365 -> (yoe + 1) mod 4 = 0 /\ ((yoe + 1) mod 100 <> 0 \/ yoe = 399).
Proof. intros Hd. cbv zeta. Z.to_euclidean_division_equations. lia. Qed.
Lemma month_bounds doy : 0 <= doy <= 365 ->
  let mp := (5 * doy + 2) / 153 in let d := doy - (153 * mp + 2) / 5 + 1 in
  0 <= mp <= 11 /\ 1 <= d <= 31 /\ ((mp = 1 \/ mp = 3 \/ mp = 6 \/ mp = 8) -> d <= 30) /\ (mp = 11 -> d <= 29 /\ (d = 29 -> doy = 365)).
Proof. intros Hd. cbv zeta. Z.to_euclidean_division_equations. lia. Qed.
Lemma civil_ok days : let '(y, m, d) := civil_of_days days in days_of_civil y m d = days /\ 1 <= m <= 12 /\ 1 <= d <= month_days y m.
Proof.
  unfold civil_of_days. set (z := days + 719468). assert (Hz : 0 <= z mod 146097 < 146097) by (apply Z.mod_pos_bound; lia).
  pose proof (civil_bounds (z mod 146097) Hz) as Hb. pose proof (civil_leap (z mod 146097) Hz) as Hl. cbv zeta in Hb, Hl.
  set (doe := z mod 146097) in *. set (yoe := (doe - doe / 1460 + doe / 36524 - doe / 146096) / 365) in *. cbv zeta.
  set (doy := doe - (365 * yoe + yoe / 4 - yoe / 100)) in *. destruct Hb as [Hy Hd].
  pose proof (month_bounds doy Hd) as Hm. cbv zeta in Hm. set (mp := (5 * doy + 2) / 153) in *. destruct Hm as (Hmp & Hday & Hshort & Hfeb).
  set (era := z / 146097) in *. assert (Hze : z = 146097 * era + doe) by (unfold era, doe; apply Z.div_mod; lia).
  clearbody mp.
  assert (Hdoc : forall y' m, (if m <=? 2 then y' - 1 else y') = yoe + era * 400 -> (if 2 <? m then m - 3 else m + 9) = mp ->
    days_of_civil y' m (doy - (153 * mp + 2) / 5 + 1) = days).
  { intros y' m H1 H2. unfold days_of_civil. rewrite H1, H2. rewrite Z.div_add by lia. rewrite (Z.div_small yoe) by lia.
    rewrite Z.mod_add by lia. rewrite (Z.mod_small yoe) by lia. unfold doy. lia. }
  destruct (Z.ltb_spec mp 10) as [H10|H10].
  - destruct (Z.leb_spec (mp + 3) 2) as [H2|H2]; [lia|]. split; [|split; [lia|]].
    + apply Hdoc; [destruct (Z.leb_spec (mp + 3) 2); lia | destruct (Z.ltb_spec 2 (mp + 3)); lia].
    + split; [lia|]. unfold month_days. destruct (Z.eqb_spec (mp + 3) 2) as [|_]; [lia|].
      destruct (Z.eqb_spec (mp + 3) 4); [cbn [orb]; apply Hshort; lia|]. destruct (Z.eqb_spec (mp + 3) 6); [cbn [orb]; apply Hshort; lia|].
      destruct (Z.eqb_spec (mp + 3) 9); [cbn [orb]; apply Hshort; lia|]. destruct (Z.eqb_spec (mp + 3) 11); [cbn [orb]; apply Hshort; lia|]. cbn [orb]. lia.
  - destruct (Z.leb_spec (mp - 9) 2) as [H2|H2]; [|lia]. split; [|split; [lia|]].
    + apply Hdoc; [destruct (Z.leb_spec (mp - 9) 2); lia | destruct (Z.ltb_spec 2 (mp - 9)); lia].
    + split; [lia|]. unfold month_days. destruct (Z.eqb_spec (mp - 9) 2) as [He|He].
      * destruct Hfeb as [Hf1 Hf2]; [lia|]. unfold leap.
        destruct (Z.eq_dec (doy - (153 * mp + 2) / 5 + 1) 29) as [H29|H29]; [|destruct (_ && _)%bool; lia].
        specialize (Hl (Hf2 H29)) as [Hl4 Hl100].
        replace ((yoe + era * 400 + 1) mod 4) with ((yoe + 1) mod 4) by (replace (yoe + era * 400 + 1) with (yoe + 1 + (era * 100) * 4) by lia; rewrite Z.mod_add by lia; reflexivity).
        replace ((yoe + era * 400 + 1) mod 100) with ((yoe + 1) mod 100) by (replace (yoe + era * 400 + 1) with (yoe + 1 + (era * 4) * 100) by lia; rewrite Z.mod_add by lia; reflexivity).
        rewrite Hl4. cbn [Z.eqb andb].
        destruct Hl100 as [Hn|Hn].
        -- destruct (Z.eqb_spec ((yoe + 1) mod 100) 0); [congruence|]. cbn [negb orb]. lia.
        -- replace ((yoe + era * 400 + 1) mod 400) with 0 by (rewrite Hn; replace (399 + era * 400 + 1) with ((era + 1) * 400) by lia; symmetry; apply Z.mod_mul; lia).
           cbn [Z.eqb]. rewrite orb_true_r. lia.
      * destruct ((mp - 9 =? 4) || (mp - 9 =? 6) || (mp - 9 =? 9) || (mp - 9 =? 11))%bool eqn:Hq; [|lia].
        rewrite !orb_true_iff, !Z.eqb_eq in Hq. lia.
Qed.

(** Which seconds have a year of four digits, from 1000 on (the range of DATETIME). *)
Definition in_datetime (t : Z) : Prop := -30610224000 <= t < 253402300800.
Lemma civil_year t : in_datetime t -> let '(y, _, _) := civil_of_days (t / 86400) in 1000 <= y <= 9999.
Proof.
  unfold in_datetime. intros Ht. set (days := t / 86400). assert (Hd : -354285 <= days < 2932897) by (unfold days; Z.to_euclidean_division_equations; lia).
  pose proof (civil_ok days) as Hc. destruct (civil_of_days days) as [[y m] d]. destruct Hc as (Hc & Hm & Hday).
  assert (Hd31 : 1 <= d <= 31) by (unfold month_days in Hday; destruct (m =? 2); [destruct (leap y); lia | destruct (_ || _ || _ || _)%bool; lia]).
  clear Hday Ht. unfold days_of_civil in Hc.
  destruct (Z.leb_spec m 2) as [H2|H2]; destruct (Z.ltb_spec 2 m) as [H3|H3]; try lia.
  - Z.to_euclidean_division_equations. lia.
  - Z.to_euclidean_division_equations. lia.
Qed.
Lemma pad_length w : forall n, length (pad_digits w n) = w.
Proof. induction w as [|w IH]; intros n; [reflexivity|]. cbn [pad_digits]. rewrite app_length, IH. cbn. lia. Qed.
Lemma pad_digits_ok w : forall n, forallb is_digit (pad_digits w n) = true.
Proof.
  induction w as [|w IH]; intros n; [reflexivity|]. cbn [pad_digits]. rewrite forallb_app, IH. cbn [forallb andb].
  rewrite digit_byte_is; [reflexivity|]. pose proof (Z.mod_pos_bound n 10). lia.
Qed.
Lemma pad_value w : forall n, 0 <= n < 10 ^ Z.of_nat w -> Z.of_N (dec_value (pad_digits w n)) = n.
Proof.
  induction w as [|w IH]; intros n Hn.
  - cbn in *. lia.
  - cbn [pad_digits]. unfold dec_value. rewrite fold_left_app. cbn [fold_left]. fold (dec_value (pad_digits w (n / 10))).
    assert (Hm : 0 <= n mod 10 < 10) by (apply Z.mod_pos_bound; lia). rewrite digit_byte_N by lia.
    assert (Hdiv : 0 <= n / 10 < 10 ^ Z.of_nat w).
    { split; [apply Z.div_pos; lia|]. apply Z.div_lt_upper_bound; [lia|]. rewrite Nat2Z.inj_succ, Z.pow_succ_r in Hn by lia. lia. }
    specialize (IH _ Hdiv). pose proof (Z.div_mod n 10). lia.
Qed.
Lemma take_pad w n s : 0 <= n < 10 ^ Z.of_nat w -> take_number w (pad_digits w n ++ s) = Some (n, s).
Proof.
  intros Hn. unfold take_number. rewrite app_length, pad_length. destruct (Nat.ltb_spec (w + length s) w); [lia|].
  rewrite firstn_app, pad_length, Nat.sub_diag. cbn [firstn]. rewrite app_nil_r. rewrite firstn_all2 by (rewrite pad_length; lia).
  rewrite pad_digits_ok, pad_value by exact Hn. rewrite skipn_app, pad_length, Nat.sub_diag. rewrite skipn_all2 by (rewrite pad_length; lia). reflexivity.
Qed.
Lemma take_here c s : take_char c (c :: s) = Some s.
Proof. unfold take_char. replace (Byte.eqb c c) with true by (destruct c; reflexivity). reflexivity. Qed.
Lemma time_round_trip t : in_datetime t -> parse_time (format_time t) = Some t.
Proof.
  intros Ht. unfold format_time, parse_time. pose proof (civil_year t Ht) as Hy. pose proof (civil_ok (t / 86400)) as Hc.
  destruct (civil_of_days (t / 86400)) as [[y m] d]. destruct Hc as (Hdoc & Hm & Hd).
  assert (Hd31 : 1 <= d <= 31) by (unfold month_days in Hd; destruct (m =? 2); [destruct (leap y); lia | destruct (_ || _ || _ || _)%bool; lia]).
  set (s := t mod 86400). assert (Hs : 0 <= s < 86400) by (apply Z.mod_pos_bound; lia).
  assert (H1 : 0 <= s / 3600 < 24) by (Z.to_euclidean_division_equations; lia).
  assert (H2 : 0 <= s / 60 mod 60 < 60) by (Z.to_euclidean_division_equations; lia).
  assert (H3 : 0 <= s mod 60 < 60) by (Z.to_euclidean_division_equations; lia).
  rewrite (take_pad 4) by (cbn; lia). cbn [obind]. rewrite take_here. cbn [obind].
  rewrite (take_pad 2) by (cbn; lia). cbn [obind]. rewrite take_here. cbn [obind].
  rewrite (take_pad 2) by (cbn; lia). cbn [obind]. rewrite take_here. cbn [obind].
  rewrite (take_pad 2) by (cbn; lia). cbn [obind]. rewrite take_here. cbn [obind].
  rewrite (take_pad 2) by (cbn; lia). cbn [obind]. rewrite take_here. cbn [obind].
  rewrite <- (app_nil_r (pad_digits 2 (s mod 60))). rewrite (take_pad 2) by (cbn; lia). cbn [obind].
  rewrite (proj2 (Z.leb_le 1 m)), (proj2 (Z.leb_le m 12)), (proj2 (Z.leb_le 1 d)), (proj2 (Z.leb_le d _)), (proj2 (Z.ltb_lt _ 24)), (proj2 (Z.ltb_lt (s / 60 mod 60) 60)), (proj2 (Z.ltb_lt (s mod 60) 60)) by lia.
  cbn [andb]. f_equal. rewrite Hdoc. assert (Hst : t = 86400 * (t / 86400) + s) by (unfold s; apply Z.div_mod; lia).
  assert (s = s / 3600 * 3600 + s / 60 mod 60 * 60 + s mod 60) by (clear; Z.to_euclidean_division_equations; lia). lia.
Qed.
Definition date_char (c : byte) : bool := is_digit c || Byte.eqb c x2d || Byte.eqb c x20 || Byte.eqb c x3a.
Lemma format_time_chars t : forallb date_char (format_time t) = true.
Proof.
  unfold format_time. destruct (civil_of_days (t / 86400)) as [[y m] d].
  assert (Hp : forall w n, forallb date_char (pad_digits w n) = true).
  { intros w n. apply forallb_forall. intros c Hc. pose proof (pad_digits_ok w n) as Hd. rewrite forallb_forall in Hd. unfold date_char. rewrite (Hd c Hc). reflexivity. }
  repeat (rewrite forallb_app, Hp; cbn [andb forallb]). rewrite Hp. reflexivity.
Qed.
Lemma format_time_length t : length (format_time t) = 19%nat.
Proof.
  unfold format_time. destruct (civil_of_days (t / 86400)) as [[y m] d]. repeat (rewrite app_length; cbn [length]; rewrite ?pad_length). reflexivity.
Qed.
Local Close Scope Z_scope.

(** ** Fields. [ends t] is the stop that the character [t] after a field means. *)
Definition ends (t : byte) (st : stop) : Prop := t = comma /\ st = SField \/ t = newline /\ st = SLine.
(** A field without any special character. *)
Definition plain (c : byte) : bool := negb (Byte.eqb c backslash || Byte.eqb c newline || Byte.eqb c comma).
Lemma read_plain f : forall acc nul t st s, forallb plain f = true -> ends t st ->
  read_field false acc nul (f ++ t :: s) = (rev acc ++ f, false, nul, st, s).
Proof.
  induction f as [|c f IH]; intros acc nul t st s Hf Ht.
  - cbn [app read_field]. rewrite app_nil_r. destruct Ht as [[-> ->]|[-> ->]]; reflexivity.
  - cbn [forallb] in Hf. apply andb_prop in Hf as [Hc Hf]. cbn [app read_field]. unfold plain in Hc. apply negb_true_iff in Hc. rewrite !orb_false_iff in Hc.
    destruct Hc as [[Hc1 Hc2] Hc3]. rewrite Hc1, Hc2, Hc3. rewrite (IH _ _ t st s Hf Ht). cbn [rev]. rewrite <- app_assoc. reflexivity.
Qed.
Definition no_backslash (f : bytes) : bool := forallb (fun c => negb (Byte.eqb c backslash)) f.
Lemma read_quoted f : forall acc nul t st s, no_backslash f = true -> ends t st ->
  read_field true acc nul (double_quotes f ++ quote :: t :: s) = (rev acc ++ f, true, nul, st, s).
Proof.
  induction f as [|c f IH]; intros acc nul t st s Hf Ht.
  - cbn [double_quotes flat_map app read_field]. rewrite app_nil_r. destruct Ht as [[-> ->]|[-> ->]]; reflexivity.
  - cbn [no_backslash forallb] in Hf. apply andb_prop in Hf as [Hc Hf]. apply negb_true_iff in Hc. cbn [double_quotes flat_map].
    destruct (Byte.eqb c quote) eqn:Hq.
    + apply byte_eqb_eq in Hq. subst c. cbn [app read_field]. change (Byte.eqb quote backslash) with false. change (Byte.eqb quote quote) with true. cbv iota.
      fold (double_quotes f). rewrite (IH _ _ t st s Hf Ht). cbn [rev]. rewrite <- app_assoc. reflexivity.
    + cbn [app read_field]. rewrite Hc, Hq. fold (double_quotes f). rewrite (IH _ _ t st s Hf Ht). cbn [rev]. rewrite <- app_assoc. reflexivity.
Qed.

(** [show] writes the field so that it is read back. *)
Definition readable (show : bytes -> bytes) (f : bytes) : Prop := forall n t st s, ends t st ->
  read_fields (S n) (show f ++ t :: s) =
  match st with SField => let '(fs, st', rest') := read_fields n s in (Some f :: fs, st', rest') | _ => ([Some f], st, s) end.
Lemma readable_plain show f : show f = f -> forallb plain f = true -> match f with c :: _ => c <> quote | [] => True end -> f <> word_null -> readable show f.
Proof.
  intros Hsh Hf Hq Hn n t st s Ht. rewrite Hsh.
  assert (Hv : field_value f false false = Some f).
  { unfold field_value. cbn [negb andb orb]. destruct (beqb_spec f word_null); [congruence|]. reflexivity. }
  assert (Hr : read_fields (S n) (f ++ t :: s) =
    let '(v, enclosed, nul, st0, rest) := read_field false [] false (f ++ t :: s) in
    match st0 with SField => let '(fs, st', rest') := read_fields n rest in (field_value v enclosed nul :: fs, st', rest') | _ => ([field_value v enclosed nul], st0, rest) end).
  { destruct f as [|c f]; cbn [app read_fields].
    - destruct Ht as [[-> ->]|[-> ->]]; reflexivity.
    - destruct (Byte.eqb c quote) eqn:Hc; [apply byte_eqb_eq in Hc; congruence|]. reflexivity. }
  rewrite Hr, (read_plain f [] false t st s Hf Ht). cbn [rev app]. rewrite Hv. destruct st; reflexivity.
Qed.
Lemma readable_quoted show f : show f = quote :: double_quotes f ++ [quote] -> no_backslash f = true -> readable show f.
Proof.
  intros Hsh Hf n t st s Ht. rewrite Hsh. cbn [app read_fields]. change (Byte.eqb quote quote) with true. cbv iota.
  rewrite <- app_assoc. cbn [app]. rewrite (read_quoted f [] false t st s Hf Ht). cbn [rev app].
  unfold field_value. cbn [negb andb orb]. destruct st; reflexivity.
Qed.

Lemma read_row show row s : row <> [] -> Forall (readable show) row ->
  read_fields (length row) (join_fields show row ++ newline :: s) = (map Some row, SLine, s).
Proof.
  intros Hne Hr. induction row as [|f row IH]; [congruence|]. inversion Hr as [|? ? Hf Hrow]; subst. destruct row as [|g row].
  - cbn [join_fields length map]. rewrite (Hf 0 newline SLine s) by (right; auto). reflexivity.
  - change (join_fields show (f :: g :: row)) with (show f ++ comma :: join_fields show (g :: row)). rewrite <- app_assoc. cbn [app].
    change (length (f :: g :: row)) with (S (length (g :: row))). rewrite (Hf (length (g :: row)) comma SField _) by (left; auto).
    rewrite IH by (first [discriminate | exact Hrow]). reflexivity.
Qed.
Definition file_of (show : bytes -> bytes) (rows : list (list bytes)) : bytes := concat (map (fun row => join_fields show row ++ [newline]) rows).
Lemma read_rows_ok show n rows : n <> 0 -> Forall (fun row => length row = n /\ Forall (readable show) row) rows ->
  forall fuel, length (file_of show rows) <= fuel -> read_rows fuel n (file_of show rows) = Some (map (map Some) rows).
Proof.
  intros Hn Hr. induction Hr as [|row rows [Hl Hrow] Hr IH]; intros fuel Hf; [destruct fuel; reflexivity|].
  unfold file_of in *. cbn [map concat] in *. rewrite <- app_assoc in *. cbn [app] in *. rewrite app_length in Hf. cbn [length] in Hf.
  destruct fuel as [|fuel]; [lia|].
  assert (Hne : row <> []) by (destruct row; [cbn in Hl; congruence | discriminate]).
  replace (read_rows (S fuel) n (join_fields show row ++ newline :: concat (map (fun row => join_fields show row ++ [newline]) rows))) with
    (let '(fs, st, rest) := read_fields n (join_fields show row ++ newline :: concat (map (fun row => join_fields show row ++ [newline]) rows)) in
     obind (read_rows fuel n (match st with SField => skip_line rest | _ => rest end)) (fun rows => Some (fs :: rows)))
    by (destruct (join_fields show row ++ newline :: _) eqn:Hq; [destruct (join_fields show row); discriminate | reflexivity]).
  rewrite <- Hl, (read_row show row _ Hne Hrow). rewrite Hl, IH by lia. reflexivity.
Qed.
Lemma read_file_ok show n rows : n <> 0 -> Forall (fun row => length row = n /\ Forall (readable show) row) rows ->
  read_file n (file_of show rows) = Some (map (map Some) rows).
Proof. intros Hn Hr. exact (read_rows_ok show n rows Hn Hr _ (le_n _)). Qed.

(** ** The two writers *)
Lemma raw_readable f : forallb plain f = true -> match f with c :: _ => c <> quote | [] => True end -> f <> word_null -> readable (fun f => f) f.
Proof. intros. apply readable_plain; auto. Qed.
Lemma csv_readable fs f : no_backslash f = true -> f <> word_null -> readable (csv_field fs) f.
Proof.
  intros Hb Hn. destruct (needs_quotes fs f) eqn:Hq.
  - apply readable_quoted; [unfold csv_field; rewrite Hq; reflexivity | exact Hb].
  - apply readable_plain; [unfold csv_field; rewrite Hq; reflexivity | | | exact Hn].
    + apply forallb_forall. intros c Hc. unfold plain, no_backslash in *. rewrite forallb_forall in Hb. specialize (Hb c Hc). apply negb_true_iff in Hb. rewrite Hb.
      unfold needs_quotes in Hq. destruct f as [|c0 f]; [destruct Hc|]. rewrite !orb_false_iff in Hq. destruct Hq as [[_ Hq] _].
      cbn [orb]. destruct (Byte.eqb c newline || Byte.eqb c comma) eqn:Hx; [|reflexivity]. exfalso.
      rewrite <- not_true_iff_false in Hq. apply Hq. apply existsb_exists. exists c. split; [exact Hc|]. apply orb_true_iff in Hx as [-> | ->]; [reflexivity | apply orb_true_r].
    + destruct f as [|c f]; [exact I|]. intros ->. unfold needs_quotes in Hq. rewrite !orb_false_iff in Hq. destruct Hq as [[_ Hq] _]. cbn [existsb] in Hq.
      change (Byte.eqb quote quote) with true in Hq. rewrite !orb_true_r in Hq. discriminate.
Qed.
(** Text of ids, payloads and dates is fine for both. *)
Definition simple (c : byte) : bool := plain c && negb (Byte.eqb c quote).
Definition simple_field (f : bytes) : Prop := forallb simple f = true /\ f <> word_null.
Lemma simple_raw f : simple_field f -> readable (fun f => f) f.
Proof.
  intros [Hs Hn]. apply raw_readable; [| |exact Hn].
  - apply forallb_forall. intros c Hc. rewrite forallb_forall in Hs. specialize (Hs c Hc). unfold simple in Hs. apply andb_prop in Hs. tauto.
  - destruct f as [|c f]; [exact I|]. intros ->. cbn in Hs. discriminate.
Qed.
Lemma simple_csv fs f : simple_field f -> readable (csv_field fs) f.
Proof.
  intros [Hs Hn]. apply csv_readable; [|exact Hn]. apply forallb_forall. intros c Hc. rewrite forallb_forall in Hs. specialize (Hs c Hc).
  unfold simple, plain in Hs. apply andb_prop in Hs as [Hs _]. apply negb_true_iff in Hs. rewrite !orb_false_iff in Hs. destruct Hs as [[-> _] _]. reflexivity.
Qed.
Lemma b64_simple l : length l <> 3 -> simple_field (b64_encode l).
Proof.
  intros Hl. split.
  - apply forallb_forall. intros c Hc. pose proof (b64_encode_text l) as Ht. rewrite forallb_forall in Ht. specialize (Ht c Hc).
    unfold b64_text in Ht. apply existsb_exists in Ht as (x & Hx & Hq). apply byte_eqb_eq in Hq. subst x.
    assert (Hall : forallb simple (b64_pad :: b64_alphabet) = true) by reflexivity. rewrite forallb_forall in Hall. exact (Hall c Hx).
  - intros Hq. assert (Hlen : length (b64_encode l) = 4) by (rewrite Hq; reflexivity). rewrite b64_length in Hlen.
    destruct l as [|a [|b [|c [|d l]]]].
    + cbn in Hlen. lia.
    + cbn [b64_encode] in Hq. cbv zeta in Hq. injection Hq as _ _ Hq _. discriminate.
    + cbn [b64_encode] in Hq. cbv zeta in Hq. injection Hq as _ _ _ Hq. discriminate.
    + cbn in Hl. lia.
    + cbn [length] in Hlen. replace (S (S (S (S (length l)))) + 2) with (length l + 2 * 3) in Hlen by lia. rewrite Nat.div_add in Hlen by lia. lia.
Qed.
Lemma b64_id l : length l = IDSize -> simple_field (b64_encode l).
Proof. intros Hl. apply b64_simple. rewrite Hl. discriminate. Qed.
Lemma time_simple t : simple_field (format_time t).
Proof.
  split.
  - apply forallb_forall. intros c Hc. pose proof (format_time_chars t) as Ht. rewrite forallb_forall in Ht. specialize (Ht c Hc). clear - Ht. destruct c; first [discriminate | reflexivity].
  - intros Hq. pose proof (format_time_length t) as Hl. rewrite Hq in Hl. discriminate.
Qed.

(** ** The statements *)
Lemma all_rows_map {A B C} (f : B -> option C) (g : A -> B) (h : A -> C) l : (forall x, In x l -> f (g x) = Some (h x)) -> all_rows f (map g l) = Some (map h l).
Proof.
  induction l as [|x l IH]; intros Hf; [reflexivity|]. cbn [map all_rows]. rewrite Hf by (left; reflexivity). cbn [obind].
  rewrite IH by (intros y Hy; apply Hf; right; exact Hy). reflexivity.
Qed.
Lemma id_back l : id_of (Some (b64_encode l)) = l.
Proof. unfold id_of. cbn [obind]. rewrite from_b64. reflexivity. Qed.
Definition good_cert (r : cert_row) : Prop :=
  length (cr_id r) = IDSize /\ (cr_parent r = [] \/ length (cr_parent r) = IDSize) /\ in_datetime (cr_exp r) /\ length (cr_payload r) <> 3.
Lemma cert_back r : in_datetime (cr_exp r) -> cert_of (map Some (cert_fields r)) = Some r.
Proof.
  intros He. unfold cert_of, cert_fields, column. cbn [map nth obind]. rewrite time_round_trip by exact He. cbn [obind]. rewrite !id_back. destruct r. reflexivity.
Qed.
Section Show.
  Variable show : bytes -> bytes.
  Hypothesis show_simple : forall f, simple_field f -> readable show f.
  Lemma certs_back rows d : Forall good_cert rows -> load_certs_csv (file_of show (map cert_fields rows)) d = Some (load_certs rows d).
  Proof.
    intros Hg. unfold load_certs_csv. rewrite (read_file_ok show 4).
    - cbn [obind]. rewrite map_map. rewrite (all_rows_map cert_of (fun r => map Some (cert_fields r)) (fun r => r)).
      + cbn [obind]. rewrite map_id. reflexivity.
      + intros r Hr. rewrite Forall_forall in Hg. apply cert_back. apply Hg. exact Hr.
    - lia.
    - rewrite Forall_map. eapply Forall_impl; [|exact Hg]. intros r (H1 & H2 & H3 & H4). split; [reflexivity|]. unfold IDSize in *.
      repeat constructor; apply show_simple; first [apply time_simple | apply b64_simple; try lia]. destruct H2 as [-> | H2]; [discriminate | lia].
  Qed.
  Lemma dirty_back ids d : Forall (fun i => length i = IDSize) ids -> load_dirty_csv (file_of show (map dirty_fields ids)) d = Some (load_dirty ids d).
  Proof.
    intros Hg. unfold load_dirty_csv. rewrite (read_file_ok show 1).
    - cbn [obind]. rewrite !map_map. do 2 f_equal. etransitivity; [|apply map_id]. apply map_ext. intros i. unfold column, dirty_fields. cbn [map nth]. apply id_back.
    - lia.
    - rewrite Forall_map. eapply Forall_impl; [|exact Hg]. intros r H1. split; [reflexivity|]. unfold IDSize in *. constructor; [|constructor]. apply show_simple, b64_simple. lia.
  Qed.
  Lemma dc_back rows d : Forall (fun r => length (fst r) = IDSize /\ length (snd r) = IDSize) rows ->
    load_dc_csv (file_of show (map dc_fields rows)) d = Some (load_dc rows d).
  Proof.
    intros Hg. unfold load_dc_csv. rewrite (read_file_ok show 2).
    - cbn [obind]. rewrite !map_map. do 2 f_equal. etransitivity; [|apply map_id]. apply map_ext. intros [i j]. unfold column, dc_fields. cbn [map nth fst snd]. rewrite !id_back. reflexivity.
    - lia.
    - rewrite Forall_map. eapply Forall_impl; [|exact Hg]. intros r [H1 H2]. split; [reflexivity|]. unfold IDSize in *.
      unfold dc_fields. apply Forall_cons; [exact (show_simple _ (b64_id _ H1)) | apply Forall_cons; [exact (show_simple _ (b64_id _ H2)) | apply Forall_nil]].
  Qed.
  Lemma domains_read rows : Forall (fun r => length (fst r) = IDSize /\ readable show (snd r)) rows ->
    domains_csv (file_of show (map domain_fields rows)) = Some (map (fun r => (fst r, Some (snd r))) rows).
  Proof.
    intros Hg. unfold domains_csv. rewrite (read_file_ok show 2).
    - cbn [obind]. rewrite !map_map. f_equal. apply map_ext. intros [i j]. unfold column, domain_fields. cbn [map nth fst snd]. rewrite !id_back. reflexivity.
    - lia.
    - rewrite Forall_map. eapply Forall_impl; [|exact Hg]. intros r [H1 H2]. split; [reflexivity|]. unfold IDSize in *.
      unfold domain_fields. apply Forall_cons; [exact (show_simple _ (b64_id _ H1)) | apply Forall_cons; [exact H2 | apply Forall_nil]].
  Qed.
  Lemma domains_back rows d : Forall (fun r => length (fst r) = IDSize /\ readable show (snd r)) rows ->
    load_domains_csv (file_of show (map domain_fields rows)) d = Some (load_domains rows d).
  Proof.
    intros Hg. unfold load_domains_csv. rewrite domains_read by exact Hg. cbn [obind]. rewrite map_map. do 2 f_equal. etransitivity; [|apply map_id]. apply map_ext. intros [i j]. reflexivity.
  Qed.
End Show.
(** Which names are written safely by the two writers. *)
Definition raw_name (n : bytes) : Prop := ~ In comma n /\ ~ In newline n /\ ~ In backslash n /\ (forall r, n <> quote :: r) /\ n <> word_null.
Definition csv_name (n : bytes) : Prop := ~ In backslash n /\ n <> word_null.
Lemma raw_name_ok n : raw_name n -> readable (fun f => f) n.
Proof.
  intros (H1 & H2 & H3 & H4 & H5). apply raw_readable; [| |exact H5].
  - apply forallb_forall. intros c Hc. unfold plain. destruct (Byte.eqb c backslash) eqn:E1; [apply byte_eqb_eq in E1; subst; tauto|].
    destruct (Byte.eqb c newline) eqn:E2; [apply byte_eqb_eq in E2; subst; tauto|]. destruct (Byte.eqb c comma) eqn:E3; [apply byte_eqb_eq in E3; subst; tauto|]. reflexivity.
  - destruct n as [|c n]; [exact I|]. intros ->. exact (H4 n eq_refl).
Qed.
Lemma csv_name_ok fs n : csv_name n -> readable (csv_field fs) n.
Proof.
  intros [H1 H2]. apply csv_readable; [|exact H2]. apply forallb_forall. intros c Hc. destruct (Byte.eqb c backslash) eqn:E1; [apply byte_eqb_eq in E1; subst; tauto | reflexivity].
Qed.
Lemma inject_text id x id' n : raw_file (map domain_fields [(id, x ++ newline :: b64_encode id' ++ comma :: n)]) = raw_file (map domain_fields [(id, x); (id', n)]).
Proof.
  unfold raw_file, raw_line, domain_fields. cbn [map concat join_fields fst snd]. rewrite <- !app_assoc. cbn [app]. rewrite <- !app_assoc. cbn [app]. rewrite <- !app_assoc. reflexivity.
Qed.

(** The statements of an insertion. *)
(** A comma ends the name; the rest of the line is skipped. *)
Lemma skip_clean y s : ~ In newline y -> ~ In backslash y -> skip_line (y ++ newline :: s) = s.
Proof.
  induction y as [|c y IH]; intros N1 N2; cbn [app skip_line]; [reflexivity|].
  destruct (Byte.eqb c backslash) eqn:E1; [apply byte_eqb_eq in E1; subst c; destruct N2; left; reflexivity|].
  destruct (Byte.eqb c newline) eqn:E2; [apply byte_eqb_eq in E2; subst c; destruct N1; left; reflexivity|].
  apply IH; intros X; [apply N1|apply N2]; right; exact X.
Qed.
Lemma comma_cuts id x y rows : length id = IDSize -> raw_name x -> ~ In newline y -> ~ In backslash y ->
  Forall (fun r => length (fst r) = IDSize /\ raw_name (snd r)) rows ->
  domains_csv (raw_file (map domain_fields ((id, x ++ comma :: y) :: rows))) = Some ((id, Some x) :: map (fun r => (fst r, Some (snd r))) rows).
Proof.
  intros Hi Hx N1 N2 Hr. assert (Hg : Forall (fun row => length row = 2 /\ Forall (readable (fun f => f)) row) (map domain_fields rows)).
  { rewrite Forall_map. eapply Forall_impl; [|exact Hr]. intros r [L N]. split; [reflexivity|]. constructor; [apply simple_raw, b64_id; exact L|]. constructor; [apply raw_name_ok; exact N|constructor]. }
  unfold domains_csv, read_file. set (rest := raw_file (map domain_fields rows)).
  assert (E : raw_file (map domain_fields ((id, x ++ comma :: y) :: rows)) = b64_encode id ++ comma :: x ++ comma :: y ++ newline :: rest).
  { unfold raw_file. cbn [map concat]. unfold raw_line at 1. cbn [join_fields domain_fields fst snd]. rewrite <- !app_assoc. cbn [app]. rewrite <- !app_assoc. reflexivity. }
  rewrite E. set (text := b64_encode id ++ comma :: x ++ comma :: y ++ newline :: rest).
  assert (F : length text = S (length text - 1) /\ length rest <= length text - 1). { unfold text. rewrite !app_length. cbn [length]. rewrite !app_length. cbn [length]. rewrite !app_length. cbn [length]. lia. }
  destruct F as [F1 F2]. rewrite F1. assert (R : read_fields 2 text = ([Some (b64_encode id); Some x], SField, y ++ newline :: rest)).
  { unfold text. rewrite (simple_raw _ (b64_id id Hi) 1 comma SField) by (left; auto). rewrite (raw_name_ok x Hx 0 comma SField) by (left; auto). reflexivity. }
  replace (read_rows (S (length text - 1)) 2 text) with
    (let '(fs, st, rest) := read_fields 2 text in obind (read_rows (length text - 1) 2 (match st with SField => skip_line rest | _ => rest end)) (fun rows => Some (fs :: rows)))
    by (destruct text as [|c q] eqn:Q; [discriminate F1|reflexivity]).
  rewrite R, skip_clean by assumption. pose proof (read_rows_ok (fun f => f) 2 (map domain_fields rows) ltac:(discriminate) Hg (length text - 1) F2) as O.
  change (file_of (fun f => f) (map domain_fields rows)) with rest in O. rewrite O. cbn [obind map column nth]. rewrite id_back, !map_map. do 2 f_equal. apply map_ext. intros r. unfold domain_fields, column. cbn [map nth]. rewrite id_back. reflexivity.
Qed.
Lemma cert_rows_in (P : cert_row -> Prop) ids : forall parents exps payloads rows, cert_rows ids parents exps payloads = Ok rows ->
  (forall i p e y, In i ids -> In p parents -> In e exps -> In y payloads -> P (mk_cr i p e y)) -> Forall P rows.
Proof.
  induction ids as [|i ids IH]; intros parents exps payloads rows; cbn [cert_rows].
  - intros E _. injection E as <-. constructor.
  - destruct parents as [|p parents]; [discriminate|]. destruct exps as [|e exps]; [discriminate|]. destruct payloads as [|y payloads]; [discriminate|].
    destruct (cert_rows ids parents exps payloads) as [rs| |] eqn:E; try discriminate. intros E2 HP. injection E2 as <-. constructor.
    + apply HP; left; reflexivity.
    + apply (IH parents exps payloads rs E). intros. apply HP; right; assumption.
Qed.
Lemma name_pairs_in names : forall ids ps, name_pairs names ids = Ok ps -> Forall (fun p => In (fst p) (concat names) /\ In (snd p) ids) ps.
Proof.
  induction names as [|ns names IH]; intros ids ps; cbn [name_pairs concat].
  - intros E. injection E as <-. constructor.
  - destruct ids as [|i ids].
    + destruct ns; [|discriminate]. intros E. exact (IH [] ps E).
    + destruct (name_pairs names ids) as [qs| |] eqn:E; try discriminate. intros E2. injection E2 as <-. apply Forall_app. split.
      * rewrite Forall_map. apply Forall_forall. intros n Hn. cbn [fst snd]. split; [apply in_or_app; left; exact Hn | left; reflexivity].
      * eapply Forall_impl; [|exact (IH ids qs E)]. intros p [H1 H2]. split; [apply in_or_app; right; exact H1 | right; exact H2].
Qed.
Lemma insert_csv_ok H space names ids parents exps payloads stmts d : (forall x, length (H x) = IDSize) ->
  Forall (fun i => length i = IDSize) ids -> Forall csv_name (concat names) ->
  (forall i p e y, In i ids -> In p parents -> In e exps -> In y payloads -> good_cert (mk_cr i p e y)) ->
  insert_certs H names ids parents exps payloads = Ok stmts -> insert_csv H space names ids parents exps payloads d = Ok (Some (run stmts d)).
Proof.
  intros HH Hi Hn Hc. unfold insert_certs, insert_csv. destruct ids as [|i0 ids0]; [intros E; injection E as <-; reflexivity|]. remember (i0 :: ids0) as ids eqn:Eids. clear i0 ids0 Eids.
  destruct (cert_rows ids parents exps payloads) as [rows| |] eqn:E1; try discriminate. destruct (name_pairs names ids) as [ps| |] eqn:E2; try discriminate.
  intros E. injection E as <-. f_equal. pose proof (name_pairs_in _ _ _ E2) as Hp. rewrite Forall_forall in Hp, Hi, Hn.
  rewrite <- (map_map (fun p => H (fst p)) dirty_fields), <- (map_map (fun p => (H (fst p), fst p)) domain_fields), <- (map_map (fun p => (H (fst p), snd p)) dc_fields).
  change (csv_file space) with (file_of (csv_field space)).
  rewrite (certs_back _ (simple_csv space)) by exact (cert_rows_in _ _ _ _ _ _ E1 Hc). cbn [obind].
  rewrite (dirty_back _ (simple_csv space)) by (rewrite Forall_map; apply Forall_forall; intros; apply HH). cbn [obind].
  rewrite (domains_back _ (simple_csv space)).
  2: { rewrite Forall_map; apply Forall_forall; intros p Hin; cbn [fst snd]. split; [apply HH | apply csv_name_ok, Hn, Hp, Hin]. }
  cbn [obind]. rewrite (dc_back _ (simple_csv space)); [reflexivity|].
  rewrite Forall_map; apply Forall_forall; intros p Hin; cbn [fst snd]. split; [apply HH | apply Hi, Hp, Hin].
Qed.
