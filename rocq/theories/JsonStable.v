(** Proofs about JsonModel: the text of what was read, and what a text says about the object. *)
From Coq Require Import Strings.String ZArith Lia.
From Verif Require Import Base BaseLemmas UtilModel UtilDuration DbModel LoadModel LoadProofs PolicyModel JsonText JsonTextProofs JsonParse JsonModel JsonProofs JsonRead JsonEvery.
Local Open Scope list_scope.
Local Notation b_ s := (list_byte_of_string s%string).

(** ** What Unmarshal puts into a string is valid UTF-8 *)
Lemma byte_at_N n : (n < 256)%N -> Byte.to_N (byte_at n) = n.
Proof. intros L. unfold byte_at. destruct (Byte.of_N n) eqn:E; [now apply Byte.to_of_N|]. apply Byte.of_N_None_iff in E. lia. Qed.
Definition rune (n : N) : Prop := (n < 1114112)%N.
Lemma rune_wide n t : rune n -> (128 <= n)%N -> wide_char (encode_rune n ++ t) = Some (encode_rune n, t).
Proof.
  unfold rune. intros R L. unfold encode_rune. destruct (N.ltb_spec n 128) as [|_]; [lia|]. destruct (N.ltb_spec n 2048) as [L2|L2].
  { cbn [app wide_char]. assert (W : two (byte_at (192 + n / 64)) (byte_at (128 + n mod 64)) = true); [|now rewrite W].
    wb. rewrite !byte_at_N by (zify; Z.to_euclidean_division_equations; lia). zify; Z.to_euclidean_division_equations; lia. }
  destruct ((55296 <=? n)%N && (n <? 57344)%N) eqn:S; [reflexivity|].
  assert (S' : (n < 55296 \/ 57344 <= n)%N).
  { apply Bool.andb_false_iff in S as [S|S]; [apply N.leb_gt in S|apply N.ltb_ge in S]; lia. }
  clear S. destruct (N.ltb_spec n 65536) as [L3|L3].
  - cbn [app wide_char]. assert (W : three (byte_at (224 + n / 4096)) (byte_at (128 + n / 64 mod 64)) (byte_at (128 + n mod 64)) = true).
    { wb. rewrite !byte_at_N by (zify; Z.to_euclidean_division_equations; lia). zify; Z.to_euclidean_division_equations; lia. }
    rewrite (two_three _ _ _ _ W), W. reflexivity.
  - cbn [app wide_char]. assert (W : four (byte_at (240 + n / 262144)) (byte_at (128 + n / 4096 mod 64)) (byte_at (128 + n / 64 mod 64)) (byte_at (128 + n mod 64)) = true).
    { wb. rewrite !byte_at_N by (zify; Z.to_euclidean_division_equations; lia). zify; Z.to_euclidean_division_equations; lia. }
    rewrite (two_four _ _ _ _ _ W), (three_four _ _ _ _ _ _ W), W. reflexivity.
Qed.
Lemma valid_single c s : ascii c = true -> valid_utf8 s -> valid_utf8 (c :: s).
Proof. intros A V x. rewrite pieces_single by exact A. intros [E|E]; [discriminate|]. now apply (V x). Qed.
Lemma valid_wide ch s : (exists t, wide_char (ch ++ t) = Some (ch, t)) -> valid_utf8 s -> valid_utf8 (ch ++ s).
Proof. intros A V x. rewrite pieces_wide by exact A. intros [E|E]; [discriminate|]. now apply (V x). Qed.
Lemma valid_rune n s : rune n -> valid_utf8 s -> valid_utf8 (encode_rune n ++ s).
Proof.
  intros R V. destruct (N.ltb_spec n 128) as [L|L].
  - unfold encode_rune. destruct (N.ltb_spec n 128); [|lia]. cbn [app]. apply valid_single; [|exact V]. unfold ascii. apply N.ltb_lt. rewrite byte_at_N; lia.
  - apply valid_wide; [|exact V]. exists []. now apply rune_wide.
Qed.
Lemma hex_value_lt c n : hex_value c = Some n -> (n < 16)%N.
Proof.
  unfold hex_value. destruct (within 48 57 c) eqn:A; [apply within_iff in A; intros [= <-]; lia|].
  destruct (within 97 102 c) eqn:B; [apply within_iff in B; intros [= <-]; lia|].
  destruct (within 65 70 c) eqn:C; [apply within_iff in C; intros [= <-]; lia|discriminate].
Qed.
Lemma hex4_lt s n r : hex4 s = Some (n, r) -> (n < 65536)%N.
Proof.
  unfold hex4. destruct s as [|a [|b [|c [|d s]]]]; try discriminate.
  destruct (hex_value a) eqn:A; [|discriminate]. destruct (hex_value b) eqn:B; [|discriminate]. destruct (hex_value c) eqn:C; [|discriminate].
  destruct (hex_value d) eqn:D; [|discriminate]. apply hex_value_lt in A, B, C, D. intros E. apply (f_equal (fun o => match o with Some p => fst p | None => 0%N end)) in E.
  cbn [fst] in E. rewrite <- E. lia.
Qed.
Lemma unquote_valid raw : forall s, unquote raw = Some s -> valid_utf8 s.
Proof.
  unfold unquote. generalize (length raw) as f. intros f. revert raw. induction f as [|f IH]; intros raw s E.
  - destruct raw; [|discriminate]. injection E as <-. intros c [].
  - destruct raw as [|c raw]; [injection E as <-; intros c []|]. cbn [unquote_upto] in E.
    assert (P : forall p r, prepend p (unquote_upto f r) = Some s -> exists s', s = p ++ s' /\ valid_utf8 s').
    { intros p r Ep. unfold prepend in Ep. destruct (unquote_upto f r) as [s'|] eqn:U; [|discriminate]. injection Ep as <-. eauto. }
    assert (Rep : forall r, prepend replacement (unquote_upto f r) = Some s -> valid_utf8 s).
    { intros r Er. destruct (P _ _ Er) as (s' & -> & V). apply valid_wide; [exists []; apply wide_replacement|exact V]. }
    destruct (Byte.eqb c bslash).
    + destruct raw as [|e r]; [discriminate|]. destruct (Byte.eqb e x75).
      * destruct (hex4 r) as [[n r1]|] eqn:H; [|discriminate]. apply hex4_lt in H.
        destruct (high_surrogate n || low_surrogate n) eqn:SU.
        -- destruct (escaped_u r1) as [[m r2]|] eqn:EU; [|now apply Rep in E].
           destruct (high_surrogate n && low_surrogate m) eqn:HL; [|now apply Rep in E].
           destruct (P _ _ E) as (s' & -> & V). apply valid_rune; [|exact V]. apply andb_prop in HL as [H1 H2].
           unfold high_surrogate, low_surrogate in *. apply andb_prop in H1 as [H1 H3]. apply andb_prop in H2 as [H2 H4].
           apply N.leb_le in H1, H2. apply N.ltb_lt in H3, H4. unfold rune. lia.
        -- destruct (P _ _ E) as (s' & -> & V). apply valid_rune; [|exact V]. unfold rune. lia.
      * destruct (simple_escape e) as [o|] eqn:SE; [|discriminate]. destruct (P _ _ E) as (s' & -> & V). cbn [app]. apply valid_single; [|exact V].
        unfold simple_escape in SE. destruct e; try discriminate SE; injection SE as <-; reflexivity.
    + destruct (Byte.eqb c dquote || (Byte.to_N c <? 32)%N); [discriminate|]. destruct (ascii c) eqn:A.
      * destruct (P _ _ E) as (s' & -> & V). now apply valid_single.
      * destruct (wide_char (c :: raw)) as [[ch r]|] eqn:W; [|now apply Rep in E]. destruct (P _ _ E) as (s' & -> & V).
        apply valid_wide; [|exact V]. destruct (wide_split _ _ _ W) as (_ & Wt & _). exists []. apply Wt.
Qed.

(** ** Times *)
Local Open Scope Z_scope.
(** Locations of the form that reading makes *)
Definition zones_law (zs : zones) : Prop := (forall ns, zone zs (utc zs) ns = 0) /\ forall off ns, off mod 60 = 0 -> zone zs (with_offset zs off ns) ns = off.
Definition whole_minutes (zs : zones) (t : time) : Prop := zone zs (t_loc t) (t_ns t) mod 60 = 0.
Lemma n_time_whole zs t : whole_minutes zs t -> n_time zs t = mk_time (t_ns t) None (if zone zs (t_loc t) (t_ns t) =? 0 then utc zs else with_offset zs (zone zs (t_loc t) (t_ns t)) (t_ns t)).
Proof.
  unfold whole_minutes, n_time. intros W. destruct (zone zs (t_loc t) (t_ns t) =? 0); [reflexivity|]. cbv zeta.
  set (off := zone zs (t_loc t) (t_ns t)) in *. assert (E : Z.quot off 60 * 60 = off) by (Z.to_euclidean_division_equations; lia).
  rewrite E. replace (t_ns t + (off - off) * giga) with (t_ns t) by lia. reflexivity.
Qed.
Lemma n_time_zone zs t : zones_law zs -> whole_minutes zs t -> zone zs (t_loc (n_time zs t)) (t_ns (n_time zs t)) = zone zs (t_loc t) (t_ns t).
Proof.
  intros [L1 L2] W. rewrite n_time_whole by exact W. cbn [t_loc t_ns]. destruct (Z.eqb_spec (zone zs (t_loc t) (t_ns t)) 0) as [E|E]; [rewrite L1; lia|now apply L2].
Qed.
Lemma time_text_n zs t : zones_law zs -> whole_minutes zs t -> time_text zs (n_time zs t) = time_text zs t.
Proof.
  intros L W. unfold time_text. rewrite n_time_zone by assumption. rewrite n_time_whole by exact W. reflexivity.
Qed.
Lemma whole_n zs t : zones_law zs -> whole_minutes zs t -> whole_minutes zs (n_time zs t).
Proof. intros L W. unfold whole_minutes. now rewrite n_time_zone. Qed.
Lemma civil_year4 y m d : 0 <= y <= 9999 -> 1 <= m <= 12 -> 1 <= d <= 31 -> d <= month_days y m ->
  let '(y', _, _) := civil_of_days (days_of_civil y m d) in 0 <= y' <= 9999.
Proof.
  intros Hy Hm Hd Hmd. set (days := days_of_civil y m d).
  assert (Hdays : -719528 <= days < 2932897).
  { unfold days, days_of_civil. destruct (Z.leb_spec m 2) as [H2|H2]; destruct (Z.ltb_spec 2 m) as [H3|H3]; try lia.
    - Z.to_euclidean_division_equations. lia.
    - assert (m = 12 -> d <= 31) by lia. Z.to_euclidean_division_equations. lia. }
  clearbody days. clear Hy Hm Hd Hmd. pose proof (civil_ok days) as Hc. destruct (civil_of_days days) as [[y' m'] d']. destruct Hc as (Hc & Hm & Hday).
  assert (Hd31 : 1 <= d' <= 31) by (unfold month_days in Hday; destruct (m' =? 2); [destruct (leap y'); lia | destruct (_ || _ || _ || _)%bool; lia]).
  clear Hday. unfold days_of_civil in Hc.
  destruct (Z.leb_spec m' 2) as [H2|H2]; destruct (Z.ltb_spec 2 m') as [H3|H3]; try lia.
  - Z.to_euclidean_division_equations. lia.
  - Z.to_euclidean_division_equations. lia.
Qed.
Definition time_good (zs : zones) (t : time) : Prop := whole_minutes zs t /\ time_text zs t <> None.
Lemma dec_value_lt s : forallb is_digit s = true -> (dec_value s < 10 ^ N.of_nat (length s))%N.
Proof.
  induction s as [|c s IH] using rev_ind; [reflexivity|]. rewrite forallb_app. intros H. apply andb_prop in H as [H1 H2]. specialize (IH H1).
  rewrite dec_value_app, app_length. cbn [length]. replace (N.of_nat (length s + 1)) with (N.succ (N.of_nat (length s))) by lia. rewrite N.pow_succ_r'.
  change (10 ^ N.of_nat 1)%N with 10%N. assert (dec_value [c] < 10)%N; [|lia].
  cbn [forallb] in H2. destruct c; try discriminate H2; reflexivity.
Qed.
Lemma take_number_lt w s n r : take_number w s = Some (n, r) -> 0 <= n < 10 ^ Z.of_nat w.
Proof.
  unfold take_number. destruct (Nat.ltb_spec (length s) w) as [|L]; [discriminate|]. destruct (forallb is_digit (firstn w s)) eqn:D; [|discriminate].
  intros E. apply (f_equal (fun o => match o with Some p => fst p | None => 0 end)) in E. cbn [fst] in E. rewrite <- E.
  apply dec_value_lt in D. rewrite firstn_length_le in D by exact L. split; [lia|].
  apply N2Z.inj_lt in D. rewrite N2Z.inj_pow, nat_N_Z in D. exact D.
Qed.
Lemma read_offset_range s o : read_offset s = Some (Some o) -> o mod 60 = 0 /\ Z.abs (Z.quot o 60) / 60 < 24.
Proof.
  unfold read_offset. destruct (beqb s [x5a]); [discriminate|]. destruct s as [|c s1]; [discriminate|].
  destruct (take_number 2 s1) as [[h s2]|] eqn:T1; [|discriminate]. cbn [obind]. destruct (take_char x3a s2) as [s3|]; [|discriminate]. cbn [obind].
  destruct (take_number 2 s3) as [[m s4]|] eqn:T2; [|discriminate]. cbn [obind]. apply take_number_lt in T1, T2.
  destruct ((h <? 24) && (m <? 60) && beqb s4 []) eqn:B; [|discriminate]. apply andb_prop in B as [B _]. apply andb_prop in B as [B1 B2].
  apply Z.ltb_lt in B1, B2. destruct (Byte.eqb c x2b); [|destruct (Byte.eqb c x2d); [|discriminate]]; intros [= <-];
    (split; [Z.to_euclidean_division_equations; lia|]); Z.to_euclidean_division_equations; lia.
Qed.
Lemma read_fraction_range s : let '(f, _) := read_fraction s in 0 <= f < giga.
Proof.
  unfold read_fraction. destruct s as [|c [|d s]]; try (unfold giga; lia). destruct (Byte.eqb c x2e && is_digit d); [|unfold giga; lia].
  destruct (take_digits (d :: s)) as [p r] eqn:T. apply take_digits_split in T as [_ F].
  assert (F9 : forallb is_digit (firstn 9 p) = true) by (rewrite <- (firstn_skipn 9 p), forallb_app in F; now apply andb_prop in F).
  apply dec_value_lt in F9. set (q := firstn 9 p) in *. assert (L : (length q <= 9)%nat) by (unfold q; rewrite firstn_length; lia).
  apply N2Z.inj_lt in F9. rewrite N2Z.inj_pow, nat_N_Z in F9. change (Z.of_N 10) with 10 in F9.
  assert (P : giga = 10 ^ Z.of_nat (length q) * 10 ^ Z.of_nat (9 - length q)).
  { rewrite <- Z.pow_add_r by lia. replace (Z.of_nat (length q) + Z.of_nat (9 - length q)) with 9 by lia. reflexivity. }
  rewrite P. assert (0 < 10 ^ Z.of_nat (9 - length q)) by (apply Z.pow_pos_nonneg; lia).
  split; [apply Z.mul_nonneg_nonneg; lia|]. apply Z.mul_lt_mono_pos_r; lia.
Qed.
Lemma read_time_good zs s t : zones_law zs -> read_rfc3339 zs s = Some t -> time_good zs t.
Proof.
  intros [L1 L2] E. unfold read_rfc3339 in E.
  destruct (take_number 4 s) as [[y s1]|] eqn:T1; [|discriminate]. cbn [obind] in E. destruct (take_char x2d s1) as [s2|]; [|discriminate]. cbn [obind] in E.
  destruct (take_number 2 s2) as [[m s3]|]; [|discriminate]. cbn [obind] in E. destruct (take_char x2d s3) as [s4|]; [|discriminate]. cbn [obind] in E.
  destruct (take_number 2 s4) as [[d s5]|]; [|discriminate]. cbn [obind] in E. destruct (take_char x54 s5) as [s6|]; [|discriminate]. cbn [obind] in E.
  destruct (take_number 2 s6) as [[hh s7]|] eqn:T4; [|discriminate]. cbn [obind] in E. destruct (take_char x3a s7) as [s8|]; [|discriminate]. cbn [obind] in E.
  destruct (take_number 2 s8) as [[mm s9]|] eqn:T5; [|discriminate]. cbn [obind] in E. destruct (take_char x3a s9) as [s10|]; [|discriminate]. cbn [obind] in E.
  destruct (take_number 2 s10) as [[ss s11]|] eqn:T6; [|discriminate]. cbn [obind] in E.
  pose proof (read_fraction_range s11) as F. destruct (read_fraction s11) as [frac s12]. destruct (read_offset s12) as [off|] eqn:O; [|discriminate]. cbn [obind] in E.
  destruct ((1 <=? m) && (m <=? 12) && (1 <=? d) && (d <=? month_days y m) && (hh <? 24) && (mm <? 60) && (ss <? 60)) eqn:B; [|discriminate].
  repeat match goal with H : _ && _ = true |- _ => apply andb_prop in H as [? ?] end.
  repeat match goal with H : (_ <=? _) = true |- _ => apply Z.leb_le in H | H : (_ <? _) = true |- _ => apply Z.ltb_lt in H end.
  apply take_number_lt in T1, T4, T5, T6. change (10 ^ Z.of_nat 4) with 10000 in T1.
  set (local := (days_of_civil y m d * 86400 + hh * 3600 + mm * 60 + ss) * giga + frac) in *.
  assert (D31 : d <= 31) by (unfold month_days in *; destruct (m =? 2); [destruct (leap y); lia | destruct (_ || _ || _ || _)%bool; lia]).
  assert (Y : local / giga / 86400 = days_of_civil y m d).
  { unfold local. rewrite Z.div_add_l by (unfold giga; lia). rewrite (Z.div_small frac) by exact F. rewrite Z.add_0_r.
    replace (days_of_civil y m d * 86400 + hh * 3600 + mm * 60 + ss) with (days_of_civil y m d * 86400 + (hh * 3600 + mm * 60 + ss)) by lia.
    rewrite Z.div_add_l by lia. rewrite (Z.div_small (_ + _ + _)) by lia. lia. }
  assert (C : forall ns off, ns + off * giga = local -> Z.abs (Z.quot off 60) / 60 < 24 ->
     forall loc, zone zs loc ns = off -> time_text zs (mk_time ns None loc) <> None).
  { intros ns o EQ Ho loc Hz. unfold time_text. cbn [t_loc t_ns]. rewrite Hz, EQ. pose proof (civil_year4 y m d ltac:(lia) ltac:(lia) ltac:(lia) ltac:(lia)) as CY.
    rewrite Y. destruct (civil_of_days (days_of_civil y m d)) as [[y' m'] d']. destruct (Z.ltb_spec y' 0); [lia|]. destruct (Z.ltb_spec 9999 y'); [lia|].
    destruct (Z.leb_spec 24 (Z.abs (Z.quot o 60) / 60)); [lia|]. discriminate. }
  clearbody local. destruct off as [o|]; injection E as <-.
  - apply read_offset_range in O as [O1 O2]. split; [unfold whole_minutes; cbn [t_loc t_ns]; now rewrite L2|]. apply (C _ o); [lia|exact O2|now apply L2].
  - split; [unfold whole_minutes; cbn [t_loc t_ns]; now rewrite L1|]. apply (C _ 0); [lia|reflexivity|apply L1].
Qed.
Lemma zero_time_good zs : zones_law zs -> time_good zs (zero_time zs).
Proof.
  intros [L1 _]. split; [unfold whole_minutes, zero_time; cbn [t_loc t_ns]; now rewrite L1|]. unfold time_text, zero_time. cbn [t_loc t_ns]. rewrite L1.
  match goal with |- context [civil_of_days ?x] => let e := eval vm_compute in (civil_of_days x) in change (civil_of_days x) with e end. cbv iota beta.
  discriminate.
Qed.
Local Close Scope Z_scope.

(** ** Objects whose strings are valid UTF-8 and whose times have offsets of whole minutes *)
Section Plain.
  Variable zs : zones.
  Definition attr_plain (a : attributes) : Prop :=
    Forall valid_utf8 (a_cas a) /\ Forall valid_utf8 (a_allowed a) /\ Forall valid_utf8 (a_disallowed a) /\ Forall valid_utf8 (a_excluded a).
  Definition fields_plain (f : fields) : Prop :=
    valid_utf8 (f_domain f) /\ attr_plain (f_attr f) /\ whole_minutes zs (f_not_before f) /\ whole_minutes zs (f_not_after f) /\ whole_minutes zs (f_stamp f).
  Definition ts_plain (t : timestamp) : Prop := whole_minutes zs (ts_added t).
  Definition cert_plain (c : cert) : Prop := fields_plain (c_fields c) /\ Forall ts_plain (c_spcts c).
  Definition rev_plain (r : revocation) : Prop := valid_utf8 (r_domain r) /\ whole_minutes zs (r_stamp r) /\ Forall ts_plain (r_spcrts r).
  Definition struct_plain (o : object) : Prop :=
    match o with
    | OReq f => fields_plain f | OCert c => cert_plain c | OSpct t | OSpcrt t | OSig t _ => ts_plain t | ORev r => rev_plain r | _ => True
    end.
  Fixpoint object_plain (o : object) : Prop :=
    match o with
    | OSlice l => (fix all (l : list object) : Prop := match l with [] => True | x :: l' => object_plain x /\ all l' end) l
    | OPtr (Some x) => object_plain x
    | _ => struct_plain o
    end.
  Lemma all_plain l : (fix all (l : list object) : Prop := match l with [] => True | x :: l' => object_plain x /\ all l' end) l <-> Forall object_plain l.
  Proof. induction l as [|x l IH]; [split; constructor|]. split; [intros [A B]; constructor; tauto|]. intros F. inversion F; subst. tauto. Qed.

  Lemma map_repair l : Forall valid_utf8 l -> map repair l = l.
  Proof. intros F. induction F; cbn [map]; [reflexivity|]. f_equal; [now apply repair_valid|assumption]. Qed.
  Lemma n_attr_plain a : attr_plain a -> n_attr a = a.
  Proof. intros (A & B & C & D). unfold n_attr. rewrite !map_repair by assumption. destruct a; reflexivity. Qed.
  Lemma slice_n k x : slice_member k (n_slice x) = slice_member k x.
  Proof. unfold slice_member, n_slice. destruct (content x) eqn:E; reflexivity. Qed.
  Lemma content_n x : content (n_slice x) = content x.
  Proof. unfold n_slice. destruct (content x) eqn:E; reflexivity. Qed.
  Lemma slice_equal_n x : slice_equal x (n_slice x) = true.
  Proof. unfold slice_equal. rewrite content_n. now apply beqb_eq. Qed.
  Lemma time_equal_n t : whole_minutes zs t -> time_equal t (n_time zs t) = true.
  Proof. intros W. rewrite n_time_whole by exact W. unfold time_equal. cbn [t_mono t_ns]. destruct (t_mono t); apply Z.eqb_refl. Qed.
  Lemma ts_equal_n t : ts_plain t -> ts_equal t (n_ts zs t) = true.
  Proof. intros W. unfold ts_equal, n_ts. cbn [ts_version ts_log ts_added ts_sig]. now rewrite Z.eqb_refl, !slice_equal_n, time_equal_n. Qed.
  Lemma equal_strings l : equal_slices beqb l l = true.
  Proof. induction l as [|x l IH]; [reflexivity|]. cbn [equal_slices]. rewrite IH. now rewrite (proj2 (beqb_eq x x) eq_refl). Qed.
  Lemma fields_equal_n f : fields_plain f -> fields_equal f (n_fields zs f) = true.
  Proof.
    intros (V & A & W1 & W2 & W3). unfold fields_equal, n_fields.
    cbn [f_raw f_version f_serial f_domain f_not_before f_not_after f_can_issue f_can_own f_key f_key_alg f_sig_alg f_stamp f_attr f_owner_sig f_owner_hash].
    rewrite n_attr_plain by exact A. rewrite repair_valid by exact V. rewrite !Z.eqb_refl, !slice_equal_n, !time_equal_n, !Bool.eqb_reflx by assumption.
    rewrite (proj2 (beqb_eq _ _) eq_refl). unfold attr_equal. now rewrite !equal_strings.
  Qed.
  Lemma stamps_equal_n l : Forall ts_plain l -> equal_slices ts_equal l (map (n_ts zs) l) = true.
  Proof. intros F. induction F as [|t l W F IH]; [reflexivity|]. cbn [map equal_slices]. now rewrite ts_equal_n, IH. Qed.
  Lemma cert_equal_n c : cert_plain c -> cert_equal c (n_cert zs c) = true.
  Proof.
    intros [F S]. unfold cert_equal, n_cert. cbn [c_fields c_issuer_sig c_issuer_hash c_spcts]. now rewrite fields_equal_n, !slice_equal_n, stamps_equal_n.
  Qed.

  (** The same members *)
  Hypothesis law : zones_law zs.
  Lemma time_member_n k t : whole_minutes zs t -> time_member zs k (n_time zs t) = time_member zs k t.
  Proof. intros W. unfold time_member. now rewrite time_text_n. Qed.
  Lemma fields_members_n f : fields_plain f -> fields_members zs (n_fields zs f) = fields_members zs f.
  Proof.
    intros (V & A & W1 & W2 & W3). unfold fields_members, n_fields.
    cbn [f_raw f_version f_serial f_domain f_not_before f_not_after f_can_issue f_can_own f_key f_key_alg f_sig_alg f_stamp f_attr f_owner_sig f_owner_hash].
    rewrite n_attr_plain by exact A. rewrite repair_valid by exact V. rewrite !time_member_n by assumption. rewrite !slice_n. reflexivity.
  Qed.
  Lemma ts_members_n t : ts_plain t -> ts_members zs (n_ts zs t) = ts_members zs t.
  Proof. intros W. unfold ts_members, n_ts. cbn [ts_version ts_log ts_added ts_sig]. rewrite time_member_n by exact W. now rewrite !slice_n. Qed.
  Lemma stamps_n l : Forall ts_plain l -> all_some (ts_json zs) (map (n_ts zs) l) = all_some (ts_json zs) l.
  Proof. intros F. induction F as [|t l W F IH]; [reflexivity|]. cbn [map all_some]. unfold ts_json at 1 3. rewrite ts_members_n by exact W. now rewrite IH. Qed.
  Lemma struct_marshal o : struct_plain o -> (forall l, o <> OSlice l) -> (forall p, o <> OPtr p) -> marshal zs (n_struct zs o) = marshal zs o.
  Proof.
    intros P NS NP. destruct o as [|f|c|t|h|r|t|t e|l|p]; cbn [n_struct marshal]; try reflexivity.
    - now rewrite fields_members_n.
    - unfold cert_members, n_cert. cbn [c_fields c_issuer_sig c_issuer_hash c_spcts]. destruct P as [F S]. rewrite fields_members_n, stamps_n by assumption. now rewrite !slice_n.
    - now rewrite ts_members_n.
    - unfold rev_request_members. now rewrite slice_n.
    - unfold rev_members, n_rev. cbn [r_version r_serial r_domain r_stamp r_owner_sig r_owner_hash r_issuer_sig r_issuer_hash r_spcrts]. destruct P as (V & W & S).
      rewrite time_member_n, stamps_n, repair_valid by assumption. now rewrite !slice_n.
    - now rewrite ts_members_n.
    - unfold sig_members. now rewrite ts_members_n.
  Qed.
  Lemma set_raw_marshal x o : marshal zs (set_raw x o) = marshal zs o.
  Proof. destruct o; reflexivity. Qed.
  Lemma keep_marshal skip x o : marshal zs (keep_text skip x o) = marshal zs o.
  Proof. unfold keep_text. destruct skip; [reflexivity|apply set_raw_marshal]. Qed.
  Lemma slice_marshal skip l : Forall object_plain l -> Forall (fun o => object_plain o -> marshal zs (normal zs skip o) = marshal zs o) l ->
    marshal zs (OSlice (map (normal zs skip) l)) = marshal zs (OSlice l).
  Proof.
    intros P IH. cbn [marshal].
    match goal with |- match ?a with _ => _ end = match ?b with _ => _ end => assert (E : a = b); [|now rewrite E] end.
    revert P. induction IH as [|o l H IH IHl]; intros P; [reflexivity|]. inversion P; subst. cbn [map]. rewrite H by assumption. rewrite IHl by assumption. reflexivity.
  Qed.
  Lemma normal_marshal skip o : object_plain o -> marshal zs (normal zs skip o) = marshal zs o.
  Proof.
    assert (G : (object_plain o -> marshal zs (normal zs skip o) = marshal zs o) /\ (object_plain o -> marshal zs (normal zs skip (OPtr (Some o))) = marshal zs (OPtr (Some o)))); [|apply G].
    induction o using object_ind'; try (split; intros P;
      [cbn [normal]; rewrite keep_marshal, struct_marshal; [reflexivity|exact P|discriminate|discriminate]
      |cbn [normal]; cbn [marshal]; rewrite keep_marshal, struct_marshal; [reflexivity|exact P|discriminate|discriminate]]).
    - assert (H' : Forall (fun o => object_plain o -> marshal zs (normal zs skip o) = marshal zs o) l) by (eapply Forall_impl; [|exact H]; intros o [A _]; exact A).
      split; intros P; apply all_plain in P.
      + now apply slice_marshal.
      + change (normal zs skip (OPtr (Some (OSlice l)))) with (OPtr (Some (OSlice (map (normal zs skip) l)))).
        pose proof (slice_marshal skip l P H') as E. change (marshal zs (OPtr (Some ?x))) with (match marshal zs x with Ok (t, v) => Ok (x2a :: t, v) | e => e end). now rewrite E.
    - split; intros P; cbn [normal]; unfold keep_text; destruct skip; reflexivity.
    - destruct IHo as [I1 I2]. split; intros P.
      + apply I2. exact P.
      + cbn [normal]. cbn [n_struct]. cbn [marshal]. unfold keep_text. destruct skip; reflexivity.
  Qed.
  (** Writing what was read from a text gives the text. *)
  Lemma normal_text skip o : object_plain o -> to_text zs (normal zs skip o) = to_text zs o.
  Proof. intros P. unfold to_text. now rewrite normal_marshal. Qed.
End Plain.

(** ** Everything that is read is such an object *)
Section Read.
  Ltac state := unfold zero_fields, zero_attr, zero_ts, zero_cert, zero_rev, with_f_raw, with_f_version, with_f_serial, with_f_domain, with_f_not_before, with_f_not_after, with_f_can_issue, with_f_can_own, with_f_key, with_f_key_alg, with_f_sig_alg, with_f_stamp, with_f_attr, with_f_owner_sig, with_f_owner_hash, with_a_cas, with_a_allowed, with_a_disallowed, with_a_excluded, with_ts_raw, with_ts_version, with_ts_log, with_ts_added, with_ts_sig, with_c_fields, with_c_issuer_sig, with_c_issuer_hash, with_c_spcts, with_r_raw, with_r_version, with_r_serial, with_r_domain, with_r_stamp, with_r_owner_sig, with_r_owner_hash, with_r_issuer_sig, with_r_issuer_hash, with_r_spcrts;
    cbn [f_raw f_version f_serial f_domain f_not_before f_not_after f_can_issue f_can_own f_key f_key_alg f_sig_alg f_stamp f_attr f_owner_sig f_owner_hash a_cas a_allowed a_disallowed a_excluded ts_raw ts_version ts_log ts_added ts_sig c_fields c_issuer_sig c_issuer_hash c_spcts r_raw r_version r_serial r_domain r_stamp r_owner_sig r_owner_hash r_issuer_sig r_issuer_hash r_spcrts fst snd].
  Variable zs : zones.
  Hypothesis law : zones_law zs.
  Definition keeps {S} (P : S -> Prop) (t : table S) : Prop := Forall (fun e => forall v s s', P s -> snd e v s = Some s' -> P s') t.
  Lemma entry_of_in {S} name (t : table S) f : entry_of name t = Some f -> exists n, In (n, f) t.
  Proof.
    induction t as [|[n g] t IH]; [discriminate|]. cbn [entry_of]. destruct (beqb _ _); [intros [= <-]; exists n; now left|].
    intros E. destruct (IH E) as [m I]. exists m. now right.
  Qed.
  Lemma members_keep {S} (P : S -> Prop) (t : table S) l : keeps P t -> forall s s', P s -> read_members t l s = Some s' -> P s'.
  Proof.
    intros K. unfold keeps in K. rewrite Forall_forall in K. induction l as [|[k v] l IH]; intros s s' Ps E; cbn [read_members] in E; [now injection E as <-|].
    destruct (unquote k) as [name|]; [|discriminate]. cbn [obind] in E. destruct (entry_of name t) as [f|] eqn:F; cbn [obind] in E.
    - destruct (f v s) as [s1|] eqn:Fs; [|discriminate]. cbn [obind] in E. apply entry_of_in in F as [n I]. apply (IH s1); [|exact E]. exact (K _ I v s s1 Ps Fs).
    - now apply (IH s).
  Qed.
  Lemma struct_keep {S} (P : S -> Prop) (t : table S) : keeps P t -> forall s v s', P s -> read_struct t s v = Some s' -> P s'.
  Proof. intros K s v s' Ps E. destruct v; try discriminate; cbn [read_struct] in E; [now injection E as <-|]. now apply (members_keep P t l K s). Qed.
  Lemma entry_keep {S A} (P : S -> Prop) (Q : A -> Prop) name (get : S -> A) read put :
    (forall s, P s -> Q (get s)) -> (forall old v x, Q old -> read old v = Some x -> Q x) -> (forall x s, Q x -> P s -> P (put x s)) ->
    forall v s s', P s -> snd (entry name get read put) v s = Some s' -> P s'.
  Proof.
    intros G R U v s s' Ps E. cbn [entry snd] in E. destruct (read (get s) v) as [x|] eqn:X; [|discriminate]. cbn in E. injection E as <-. apply U; [|exact Ps]. exact (R _ _ _ (G s Ps) X).
  Qed.
  Lemma int_keep old v x : int64 old = true -> read_int old v = Some x -> int64 x = true.
  Proof.
    intros I E. destruct v; try discriminate; cbn [read_int] in E; [now injection E as <-|]. destruct (int_of text) as [z|]; [|discriminate]. cbn [obind] in E.
    destruct (int64 z) eqn:Z; [|discriminate]. now injection E as <-.
  Qed.
  Lemma string_keep old v x : valid_utf8 old -> read_string old v = Some x -> valid_utf8 x.
  Proof. intros I E. destruct v; try discriminate; cbn [read_string] in E; [now injection E as <-|]. now apply unquote_valid in E. Qed.
  Lemma time_keep old v x : time_good zs old -> read_time zs old v = Some x -> time_good zs x.
  Proof. intros I E. destruct v; try discriminate; cbn [read_time] in E; [now injection E as <-|]. now apply (read_time_good zs raw). Qed.
  Lemma list_keep {A} (Q : A -> Prop) read zero : (forall old v x, Q old -> read old v = Some x -> Q x) -> Q zero ->
    forall old v x, Forall Q old -> read_list read zero old v = Some x -> Forall Q x.
  Proof.
    intros R Z old v x F E. destruct v; try discriminate; cbn [read_list] in E; [injection E as <-; constructor|]. revert old x F E. induction l as [|v l IH]; intros old x F E; cbn [read_elements] in E.
    - injection E as <-. constructor.
    - destruct (read (hd zero old) v) as [y|] eqn:Y; [|discriminate]. cbn [obind] in E. destruct (read_elements read zero (tl old) l) as [r|] eqn:X; [|discriminate]. cbn [obind] in E.
      injection E as <-. assert (H : Q (hd zero old)) by (destruct F; assumption). constructor; [exact (R _ _ _ H Y)|]. apply (IH (tl old)); [destruct F; [constructor|assumption]|exact X].
  Qed.
  Definition attr_good (a : attributes) : Prop := attr_plain a.
  Definition fields_good (f : fields) : Prop :=
    fields_int f /\ valid_utf8 (f_domain f) /\ attr_plain (f_attr f) /\ time_good zs (f_not_before f) /\ time_good zs (f_not_after f) /\ time_good zs (f_stamp f).
  Definition ts_good (t : timestamp) : Prop := ts_int t /\ time_good zs (ts_added t).
  Definition cert_good (c : cert) : Prop := fields_good (c_fields c) /\ Forall ts_good (c_spcts c).
  Definition rev_good (r : revocation) : Prop :=
    int64 (r_version r) = true /\ int64 (r_serial r) = true /\ valid_utf8 (r_domain r) /\ time_good zs (r_stamp r) /\ Forall ts_good (r_spcrts r).
  Lemma valid_nil : valid_utf8 [].
  Proof. intros c []. Qed.
  Lemma strings_keep old v x : Forall valid_utf8 old -> read_strings old v = Some x -> Forall valid_utf8 x.
  Proof. apply list_keep; [exact string_keep|exact valid_nil]. Qed.
  Lemma attr_keeps : keeps attr_plain attr_table.
  Proof.
    unfold attr_table, keeps. repeat apply Forall_cons; try apply Forall_nil;
      (apply (entry_keep _ (Forall valid_utf8)); [intros s (A & B & C & D); assumption|exact strings_keep|]);
      intros x s Q (A & B & C & D); unfold attr_plain; state; tauto.
  Qed.
  Lemma fields_keeps : keeps fields_good (fields_table zs).
  Proof.
    unfold fields_table, keeps. repeat apply Forall_cons; try apply Forall_nil.
    all: first
      [ apply (entry_keep _ (fun z => int64 z = true)); [intros s ((I1 & I2 & I3 & I4) & V & A & T1 & T2 & T3); assumption|exact int_keep|]
      | apply (entry_keep _ valid_utf8); [intros s ((I1 & I2 & I3 & I4) & V & A & T1 & T2 & T3); assumption|exact string_keep|]
      | apply (entry_keep _ (time_good zs)); [intros s ((I1 & I2 & I3 & I4) & V & A & T1 & T2 & T3); assumption|exact time_keep|]
      | apply (entry_keep _ attr_plain); [intros s ((I1 & I2 & I3 & I4) & V & A & T1 & T2 & T3); assumption|exact (struct_keep attr_plain attr_table attr_keeps)|]
      | apply (entry_keep _ (fun _ => True)); [auto|auto|] ].
    all: intros x s Q ((I1 & I2 & I3 & I4) & V & A & T1 & T2 & T3); unfold fields_good, fields_int; state; tauto.
  Qed.
  Lemma ts_keeps : keeps ts_good (ts_table zs).
  Proof.
    unfold ts_table, keeps. repeat apply Forall_cons; try apply Forall_nil.
    all: first
      [ apply (entry_keep _ (fun z => int64 z = true)); [intros s (I & T); assumption|exact int_keep|]
      | apply (entry_keep _ (time_good zs)); [intros s (I & T); assumption|exact time_keep|]
      | apply (entry_keep _ (fun _ => True)); [auto|auto|] ].
    all: intros x s Q (I & T); unfold ts_good, ts_int; state; tauto.
  Qed.
  Lemma zero_fields_good : fields_good (zero_fields zs).
  Proof. pose proof (zero_time_good zs law). unfold fields_good, fields_int, attr_plain. state. pose proof valid_nil. pose proof (Forall_nil valid_utf8). assert (int64 0 = true) by reflexivity. tauto. Qed.
  Lemma zero_ts_good : ts_good (zero_ts zs).
  Proof. pose proof (zero_time_good zs law). split; [reflexivity|assumption]. Qed.
  Lemma stamps_keep old v x : Forall ts_good old -> read_stamps zs old v = Some x -> Forall ts_good x.
  Proof. apply list_keep; [exact (struct_keep ts_good (ts_table zs) ts_keeps)|exact zero_ts_good]. Qed.
  Lemma embedded_keeps {S T} (P : S -> Prop) (Q : T -> Prop) get put (t : table T) :
    (forall s, P s -> Q (get s)) -> (forall x s, Q x -> P s -> P (put x s)) -> keeps Q t -> keeps P (embedded get put t).
  Proof.
    intros G U K. unfold keeps, embedded in *. rewrite Forall_map. eapply Forall_impl; [|exact K]. intros e H v s s' Ps E. cbn [snd] in E.
    destruct (snd e v (get s)) as [x|] eqn:X; [|discriminate]. cbn in E. injection E as <-. apply U; [|exact Ps]. exact (H _ _ _ (G s Ps) X).
  Qed.
  Lemma cert_keeps : keeps cert_good (cert_table zs).
  Proof.
    unfold cert_table. apply Forall_app. split.
    - apply (embedded_keeps cert_good fields_good); [intros s [A B]; exact A|intros x s Q [A B]; split; assumption|exact fields_keeps].
    - repeat apply Forall_cons; try apply Forall_nil.
      all: first
        [ apply (entry_keep _ (Forall ts_good)); [intros s (I & T); assumption|exact stamps_keep|]
        | apply (entry_keep _ (fun _ => True)); [auto|auto|] ].
      all: intros x s Q (I & T); unfold cert_good; state; tauto.
  Qed.
  Lemma rev_keeps : keeps rev_good (rev_table zs).
  Proof.
    unfold rev_table, keeps. repeat apply Forall_cons; try apply Forall_nil.
    all: first
      [ apply (entry_keep _ (fun z => int64 z = true)); [intros s (I1 & I2 & V & T & F); assumption|exact int_keep|]
      | apply (entry_keep _ valid_utf8); [intros s (I1 & I2 & V & T & F); assumption|exact string_keep|]
      | apply (entry_keep _ (time_good zs)); [intros s (I1 & I2 & V & T & F); assumption|exact time_keep|]
      | apply (entry_keep _ (Forall ts_good)); [intros s (I1 & I2 & V & T & F); assumption|exact stamps_keep|]
      | apply (entry_keep _ (fun _ => True)); [auto|auto|] ].
    all: intros x s Q (I1 & I2 & V & T & F); unfold rev_good; state; tauto.
  Qed.
  Lemma sig_keeps : keeps (fun p => ts_good (fst p)) (sig_table zs).
  Proof.
    unfold sig_table. apply Forall_app. split.
    - apply (embedded_keeps _ ts_good); [auto|auto|exact ts_keeps].
    - repeat apply Forall_cons; try apply Forall_nil. apply (entry_keep _ (fun _ => True)); auto.
  Qed.
  Definition struct_good (o : object) : Prop :=
    match o with
    | OReq f => fields_good f | OCert c => cert_good c | OSpct t | OSpcrt t | OSig t _ => ts_good t | ORevReq _ => True | ORev r => rev_good r | _ => False
    end.
  Lemma structure_good T v o : structure zs T v = Ok (Some o) -> struct_good o.
  Proof.
    assert (K : forall S (P : S -> Prop) (t : table S) zero make, keeps P t -> P zero -> (forall s, P s -> struct_good (make s)) ->
      inflate t zero make v = Ok (Some o) -> struct_good o).
    { intros S P t zero make Kp Z M E. unfold inflate in E. destruct (read_struct t zero v) as [s|] eqn:R; [|discriminate]. injection E as <-. apply M. exact (struct_keep P t Kp zero v s Z R). }
    unfold structure.
    destruct (beqb T (b_ "pcsr")); [apply (K _ fields_good); [exact fields_keeps|exact zero_fields_good|auto]|].
    destruct (beqb T (b_ "pc")); [apply (K _ cert_good); [exact cert_keeps|split; [exact zero_fields_good|constructor]|auto]|].
    destruct (beqb T (b_ "pcrevsr")); [apply (K _ (fun _ => True)); [apply Forall_forall; auto|exact I|intros; exact I]|].
    destruct (beqb T (b_ "pcrev")); [apply (K _ rev_good); [exact rev_keeps| |auto]|].
    { pose proof (zero_time_good zs law). unfold rev_good. state. pose proof valid_nil. pose proof (Forall_nil ts_good). assert (int64 0 = true) by reflexivity. tauto. }
    destruct (beqb T (b_ "spct")); [apply (K _ ts_good); [exact ts_keeps|exact zero_ts_good|auto]|].
    destruct (beqb T (b_ "spcrevt")); [apply (K _ ts_good); [exact ts_keeps|exact zero_ts_good|auto]|].
    destruct (beqb T (b_ "spctsiginput")); [apply (K _ (fun p => ts_good (fst p))); [exact sig_keeps|exact zero_ts_good|auto]|].
    discriminate.
  Qed.
  Lemma good_raw x o : struct_good (set_raw x o) <-> struct_good o.
  Proof. destruct o; cbn; try tauto. Qed.
  Lemma good_keep skip x o : struct_good o -> struct_good (keep_text skip x o).
  Proof. unfold keep_text. destruct skip; [auto|]. apply good_raw. Qed.
  (** Objects that ToJSON can write and FromJSON read back *)
  Definition object_good (o : object) : Prop := object_ok o /\ object_plain zs o /\ exists text, to_text zs o = Ok text.
  Lemma time_good_text t : time_good zs t -> exists x, time_text zs t = Some x.
  Proof. intros [_ N]. destruct (time_text zs t); [eauto|contradiction]. Qed.
  Lemma fields_text f : fields_good f -> exists l, fields_members zs f = Some l.
  Proof.
    intros (I & V & A & T1 & T2 & T3). apply time_good_text in T1 as [x1 T1], T2 as [x2 T2], T3 as [x3 T3]. unfold fields_members, time_member.
    rewrite T1, T2, T3. cbn [option_map obind]. eauto.
  Qed.
  Lemma ts_text t : ts_good t -> exists l, ts_members zs t = Some l.
  Proof. intros (I & T). apply time_good_text in T as [x T]. unfold ts_members, time_member. rewrite T. cbn [option_map obind]. eauto. Qed.
  Lemma stamps_text l : Forall ts_good l -> exists vs, all_some (ts_json zs) l = Some vs.
  Proof.
    intros F. induction F as [|t l G F [vs IH]]; [exists []; reflexivity|]. cbn [all_some]. unfold ts_json at 1. destruct (ts_text t G) as [m ->]. cbn [option_map obind].
    rewrite IH. cbn [obind]. eauto.
  Qed.
  Lemma struct_text o : struct_good o -> exists p, marshal zs o = Ok p.
  Proof.
    destruct o as [|f|c|t|h|r|t|t e|l|p]; cbn [struct_good]; try contradiction; intros G; cbn [marshal].
    - destruct (fields_text f G) as [l ->]. cbn. eauto.
    - destruct G as [G1 G2]. unfold cert_members. destruct (fields_text _ G1) as [l ->]. destruct (stamps_text _ G2) as [vs ->]. cbn. eauto.
    - destruct (ts_text t G) as [l ->]. cbn. eauto.
    - cbn. eauto.
    - destruct G as (I1 & I2 & V & T & F). unfold rev_members, time_member. apply time_good_text in T as [x ->]. destruct (stamps_text _ F) as [vs ->]. cbn. eauto.
    - destruct (ts_text t G) as [l ->]. cbn. eauto.
    - unfold sig_members. destruct (ts_text t G) as [l ->]. cbn. eauto.
  Qed.
  Lemma good_ts_parts l : Forall ts_good l -> Forall ts_int l /\ Forall (ts_plain zs) l.
  Proof. intros F. split; (eapply Forall_impl; [|exact F]); intros t [A [B C]]; assumption. Qed.
  Lemma good_parts o : struct_good o -> struct_ok o /\ struct_plain zs o.
  Proof.
    destruct o as [|f|c|t|h|r|t|t e|l|p]; cbn [struct_good struct_ok struct_plain]; try contradiction; try tauto.
    - intros (I & V & A & [T1 _] & [T2 _] & [T3 _]). split; [exact I|]. unfold fields_plain. auto.
    - intros [(I & V & A & [T1 _] & [T2 _] & [T3 _]) F]. apply good_ts_parts in F as [F1 F2]. split; [split; assumption|]. split; [unfold fields_plain; auto|exact F2].
    - intros [I [T _]]. split; assumption.
    - intros (I1 & I2 & V & [T _] & F). apply good_ts_parts in F as [F1 F2]. split; [unfold rev_int; auto|unfold rev_plain; auto].
    - intros [I [T _]]. split; assumption.
    - intros [I [T _]]. split; assumption.
  Qed.
  Lemma struct_object o : struct_good o -> object_good o /\ object_good (OPtr (Some o)).
  Proof.
    intros G. destruct (good_parts o G) as [A B]. destruct (struct_text o G) as [[t v] M].
    assert (N : (forall l, o <> OSlice l) /\ (forall p, o <> OPtr p)) by (destruct o; try contradiction; split; discriminate).
    split; (split; [|split]).
    - destruct o; try contradiction; exact A.
    - destruct o; try contradiction; exact B.
    - unfold to_text. rewrite M. eauto.
    - destruct o; try contradiction; exact A.
    - destruct o; try contradiction; exact B.
    - unfold to_text. cbn [marshal]. rewrite M. eauto.
  Qed.
  Lemma slice_object l : Forall object_good l -> object_good (OSlice l) /\ object_good (OPtr (Some (OSlice l))).
  Proof.
    intros F. assert (A : Forall object_ok l) by (eapply Forall_impl; [|exact F]; intros o (A & _); exact A).
    assert (B : Forall (object_plain zs) l) by (eapply Forall_impl; [|exact F]; intros o (_ & B & _); exact B).
    assert (C : exists p, marshal zs (OSlice l) = Ok p).
    { cbn [marshal].
      match goal with |- exists p, match ?a with _ => _ end = _ => assert (E : exists r, a = Ok r); [|destruct E as [r ->]; eauto] end.
      clear A B. induction F as [|o l (_ & _ & text & T) F [r IH]]; [eauto|]. unfold to_text in T. destruct (marshal zs o) as [p| |]; try discriminate. rewrite IH. eauto. }
    destruct C as [[t v] M].
    split; (split; [|split]).
    - cbn [object_ok]. now apply all_ok.
    - cbn [object_plain]. now apply all_plain.
    - unfold to_text. rewrite M. eauto.
    - cbn [object_ok]. now apply all_ok.
    - cbn [object_plain]. now apply all_plain.
    - unfold to_text. change (marshal zs (OPtr (Some ?x))) with (match marshal zs x with Ok (t, v) => Ok (x2a :: t, v) | e => e end). rewrite M. eauto.
  Qed.
  Lemma read_all_good f skip l : (forall x o, from_text_upto zs f skip x = Some (Ok o) -> object_good o) ->
    forall acc o, Forall object_good acc -> read_all zs f skip l acc = Some (Ok o) -> exists l', o = OSlice l' /\ Forall object_good l'.
  Proof.
    intros IH. induction l as [|x l IHl]; intros acc o F E.
    - unfold read_all in E. injection E as <-. exists (rev acc). split; [reflexivity|now apply Forall_rev].
    - unfold read_all in *. destruct (from_text_upto zs f skip x) as [[o'| |]|] eqn:X; try discriminate. apply (IHl (o' :: acc) o); [|exact E]. constructor; [eauto|exact F].
  Qed.
  Lemma upto_good f : forall skip text o, from_text_upto zs f skip text = Some (Ok o) -> object_good o.
  Proof.
    induction f as [|f IH]; intros skip text o E; [discriminate|]. rewrite from_text_step in E.
    destruct (obind (raw_members text) (fun l => read_pair l ([], None))) as [[T [ot|]]|]; try discriminate. destruct (parse ot) as [v|]; [|discriminate].
    assert (SL : forall o, slice_text zs f skip ot = Some (Ok o) -> exists l', o = OSlice l' /\ Forall object_good l').
    { intros o' E'. unfold slice_text in E'. destruct (raw_elements ot) as [l|]; [|discriminate]. apply (read_all_good f skip l (IH skip) []); [constructor|exact E']. }
    destruct (beqb T (b_ "[]")).
    { apply SL in E as (l & -> & F). now apply slice_object. }
    destruct (structure zs T v) as [[o'|]| |] eqn:S; try discriminate.
    - injection E as <-. apply structure_good in S. now apply struct_object, good_keep.
    - destruct T as [|c T]; [discriminate|]. destruct (Byte.eqb c x2a); [|discriminate]. destruct (beqb T (b_ "[]")).
      + destruct (slice_text zs f skip ot) as [[o'| |]|]; try discriminate. injection E as <-. destruct (SL _ eq_refl) as (l & -> & F). now apply slice_object.
      + destruct (structure zs T v) as [[o'|]| |] eqn:S2; try discriminate. injection E as <-. apply structure_good in S2. now apply struct_object, good_keep.
  Qed.
  (** Whatever was read can be written, and what is written then is read back and written again as the same text. *)
  Lemma read_write skip text o : from_text zs skip text = Some (Ok o) ->
    exists x, to_text zs o = Ok x /\ from_text zs skip x = Some (Ok (normal zs skip o)) /\ to_text zs (normal zs skip o) = Ok x.
  Proof.
    intros E. apply upto_good in E as (A & B & x & X). exists x. split; [exact X|]. split; [now apply round_trip|]. rewrite normal_text by assumption. exact X.
  Qed.
End Read.

(** ** What a text says about the object *)
Lemma text_inj zs o1 o2 x : object_ok o1 -> object_ok o2 -> to_text zs o1 = Ok x -> to_text zs o2 = Ok x -> normal zs true o1 = normal zs true o2.
Proof. intros K1 K2 T1 T2. apply (round_trip zs true) in T1; [|exact K1]. apply (round_trip zs true) in T2; [|exact K2]. congruence. Qed.
Lemma cert_text_inj zs c1 c2 x : cert_int c1 -> cert_int c2 -> to_text zs (OPtr (Some (OCert c1))) = Ok x -> to_text zs (OPtr (Some (OCert c2))) = Ok x ->
  n_cert zs c1 = n_cert zs c2.
Proof. intros K1 K2 T1 T2. pose proof (text_inj zs (OPtr (Some (OCert c1))) (OPtr (Some (OCert c2))) x K1 K2 T1 T2) as E. exact (f_equal (fun o => match o with OPtr (Some (OCert c)) => c | _ => n_cert zs c1 end) E). Qed.
