(** Proofs about JsonModel: reading what was written. *)
From Coq Require Import Strings.String.
From Verif Require Import Base BaseLemmas UtilModel UtilDuration DbModel LoadModel LoadProofs PolicyModel JsonText JsonTextProofs JsonModel.
Local Open Scope list_scope.
Local Notation b_ s := (list_byte_of_string s%string).

(** ** Values *)
Lemma int_of_dec z : int_of (dec_Z z) = Some z.
Proof.
  assert (D : forall n, exists c s, dec_N n = c :: s /\ Byte.eqb c x2d = false /\ forallb is_digit (c :: s) = true).
  { intros n. destruct (dec_N_cons n) as (c & s & E & Hc). exists c, s. split; [exact E|]. split; [now apply digit_not_dash|].
    rewrite <- E. apply dec_N_digits. }
  unfold dec_Z. destruct (Z.ltb_spec z 0).
  - destruct (D (Z.to_N (- z))) as (c & s & E & Hc & Hd). unfold int_of. rewrite byte_eqb_refl. rewrite E, Hd. cbn [obind].
    rewrite <- E, dec_N_value. f_equal. lia.
  - destruct (D (Z.to_N z)) as (c & s & E & Hc & Hd). unfold int_of. rewrite E, Hc, Hd. rewrite <- E, dec_N_value. f_equal. lia.
Qed.
Lemma b64_simple c : b64_text c = true -> simple_char c = true /\ line_break c = false.
Proof. destruct c; intros E; try discriminate E; split; reflexivity. Qed.
Lemma b64_simples l : forallb simple_char (b64_encode l) = true.
Proof.
  apply forallb_forall. intros c I. pose proof (b64_encode_text l) as T. rewrite forallb_forall in T. now apply b64_simple, T.
Qed.
Lemma filter_all {A} (p : A -> bool) l : forallb p l = true -> filter p l = l.
Proof. induction l as [|x l IH]; cbn; [reflexivity|]. intros E. apply andb_prop in E as [-> E]. now rewrite IH. Qed.
Lemma read_slice_b64 old b : read_slice old (JStr (b64_encode b)) = Some (Some b).
Proof.
  cbn [read_slice]. rewrite unquote_simple by apply b64_simples. cbn [obind]. rewrite filter_all.
  - rewrite b64_round_trip. reflexivity.
  - apply forallb_forall. intros c I. pose proof (b64_encode_text b) as T. rewrite forallb_forall in T.
    destruct (b64_simple c (T c I)) as [_ ->]. reflexivity.
Qed.

(** ** Times *)
Local Open Scope Z_scope.
Definition n_time (zs : zones) (t : time) : time :=
  let off := zone zs (t_loc t) (t_ns t) in
  if off =? 0 then mk_time (t_ns t) None (utc zs)
  else let o := Z.quot off 60 * 60 in let ns := t_ns t + (off - o) * giga in mk_time ns None (with_offset zs o ns).
Lemma dec_value_app p q : dec_value (p ++ q) = (dec_value p * 10 ^ N.of_nat (length q) + dec_value q)%N.
Proof.
  unfold dec_value. rewrite fold_left_app. generalize (fold_left (fun acc b => acc * 10 + (Byte.to_N b - 48))%N p 0%N) as a.
  assert (G : forall q a, fold_left (fun acc b => acc * 10 + (Byte.to_N b - 48))%N q a =
    (a * 10 ^ N.of_nat (length q) + fold_left (fun acc b => acc * 10 + (Byte.to_N b - 48))%N q 0)%N).
  { clear. induction q as [|c q IH]; intros a; [cbn; lia|]. cbn [fold_left length]. rewrite IH. rewrite (IH (0 * 10 + _)%N).
    rewrite Nat2N.inj_succ, N.pow_succ_r'. lia. }
  intros a. apply G.
Qed.
Lemma drop_zeros_app s : exists k, s = repeat x30 k ++ drop_zeros s /\ (k <= length s)%nat.
Proof.
  induction s as [|c s (k & E & L)]; [exists 0%nat; auto|]. cbn [drop_zeros]. destruct (Byte.eqb c x30) eqn:B.
  - apply byte_eqb_eq in B. subst c. exists (S k). cbn. rewrite <- E. split; [reflexivity|lia].
  - exists 0%nat. cbn. split; [reflexivity|lia].
Qed.
Lemma repeat_rev {A} (x : A) k : rev (repeat x k) = repeat x k.
Proof.
  induction k as [|k IH]; [reflexivity|]. cbn. rewrite IH. clear IH. induction k as [|k IH]; [reflexivity|]. cbn. now rewrite IH.
Qed.
Lemma dec_zeros k : dec_value (repeat x30 k) = 0%N.
Proof. unfold dec_value. induction k as [|k IH]; [reflexivity|]. cbn. exact IH. Qed.
Lemma fraction_trim n : exists k, pad_digits 9 n = rev (drop_zeros (rev (pad_digits 9 n))) ++ repeat x30 k.
Proof.
  destruct (drop_zeros_app (rev (pad_digits 9 n))) as (k & E & _). exists k. apply (f_equal (@rev byte)) in E.
  rewrite rev_involutive, rev_app_distr, repeat_rev in E. exact E.
Qed.
Lemma read_fraction_ok n r : 0 <= n < giga -> match r with [] => False | c :: _ => is_digit c = false /\ c <> x2e end ->
  read_fraction (fraction n ++ r) = (n, r).
Proof.
  unfold giga. intros Hn R. unfold fraction. destruct (Z.eqb_spec n 0) as [->|N0].
  - cbn [app]. unfold read_fraction. destruct r as [|c r]; [reflexivity|]. destruct R as [_ R]. destruct r as [|d r]; [reflexivity|].
    destruct (Byte.eqb c x2e) eqn:B; [apply byte_eqb_eq in B; contradiction|]. reflexivity.
  - destruct (fraction_trim n) as [k E]. set (q := rev (drop_zeros (rev (pad_digits 9 n)))) in *.
    assert (V : Z.of_N (dec_value (pad_digits 9 n)) = n) by (apply pad_value; cbn; lia).
    assert (L : length (pad_digits 9 n) = 9%nat) by apply pad_length.
    assert (D : forallb is_digit (pad_digits 9 n) = true) by apply pad_digits_ok.
    rewrite E in V, L, D. rewrite app_length, repeat_length in L. rewrite forallb_app in D. apply andb_prop in D as [D _].
    rewrite dec_value_app, dec_zeros, repeat_length in V.
    assert (Q : exists d q', q = d :: q').
    { destruct q as [|d q']; [|eauto]. cbn in V. lia. }
    destruct Q as (d & q' & Q). cbn [app]. unfold read_fraction.
    assert (T : take_digits (q ++ r) = (q, r)) by (apply take_digits_app; [exact D|]; destruct r as [|c r]; [contradiction|apply R]).
    rewrite Q in *. cbn [app] in *. rewrite byte_eqb_refl.
    assert (Dd : is_digit d = true) by (cbn in D; apply andb_prop in D as [D _]; exact D). rewrite Dd. cbn [andb].
    rewrite T. assert (F : firstn 9 (d :: q') = d :: q') by (apply firstn_all2; lia). rewrite F. f_equal. clear F T.
    replace (9 - length (d :: q'))%nat with k by lia. rewrite N.add_0_r, N2Z.inj_mul, N2Z.inj_pow, nat_N_Z in V. exact V.
Qed.
Lemma read_offset_ok off : Z.abs (Z.quot off 60) / 60 < 24 ->
  read_offset (offset_text off) = Some (if off =? 0 then None else Some (Z.quot off 60 * 60)).
Proof.
  intros L. unfold offset_text. destruct (Z.eqb_spec off 0) as [->|N0]; [reflexivity|]. set (m := Z.quot off 60) in *.
  assert (B1 : 0 <= Z.abs m / 60 < 24) by (split; [apply Z.div_pos; lia|exact L]).
  assert (B2 : 0 <= Z.abs m mod 60 < 60) by (apply Z.mod_pos_bound; lia).
  assert (X : forall c, c = x2d \/ c = x2b -> read_offset (c :: pad_digits 2 (Z.abs m / 60) ++ x3a :: pad_digits 2 (Z.abs m mod 60)) =
    Some (Some (if Byte.eqb c x2b then (Z.abs m / 60 * 60 + Z.abs m mod 60) * 60 else - ((Z.abs m / 60 * 60 + Z.abs m mod 60) * 60)))).
  { intros c C. unfold read_offset.
    assert (Bz : beqb (c :: pad_digits 2 (Z.abs m / 60) ++ x3a :: pad_digits 2 (Z.abs m mod 60)) [x5a] = false) by (destruct C as [->| ->]; reflexivity).
    rewrite Bz. rewrite take_pad by (cbn; lia). cbn [obind]. rewrite take_here. cbn [obind].
    rewrite <- (app_nil_r (pad_digits 2 (Z.abs m mod 60))), take_pad by (cbn; lia). cbn [obind].
    destruct (Z.ltb_spec (Z.abs m / 60) 24); [|lia]. destruct (Z.ltb_spec (Z.abs m mod 60) 60); [|lia].
    destruct C as [->| ->]; reflexivity. }
  assert (A : Z.abs m / 60 * 60 + Z.abs m mod 60 = Z.abs m) by (rewrite (Z.div_mod (Z.abs m) 60) at 3; lia).
  destruct (Z.ltb_spec m 0); (rewrite X by auto).
  - change (Byte.eqb x2d x2b) with false. cbv iota. rewrite A. do 2 f_equal. lia.
  - rewrite byte_eqb_refl, A. do 2 f_equal. lia.
Qed.
Lemma read_rfc3339_ok zs t x : time_text zs t = Some x -> read_rfc3339 zs x = Some (n_time zs t).
Proof.
  unfold time_text, n_time. set (off := zone zs (t_loc t) (t_ns t)). set (local := t_ns t + off * giga).
  pose proof (civil_ok (local / giga / 86400)) as Hc. destruct (civil_of_days (local / giga / 86400)) as [[y m] d]. destruct Hc as (Hdoc & Hm & Hd).
  assert (Hd31 : 1 <= d <= 31) by (unfold month_days in Hd; destruct (m =? 2); [destruct (leap y); lia | destruct (_ || _ || _ || _)%bool; lia]).
  set (s := (local / giga) mod 86400). assert (Hs : 0 <= s < 86400) by (apply Z.mod_pos_bound; lia).
  destruct (_ || _ || _)%bool eqn:G; [discriminate|]. apply Bool.orb_false_iff in G as [G G3]. apply Bool.orb_false_iff in G as [G1 G2].
  apply Z.ltb_ge in G1, G2. apply Z.leb_gt in G3. intros Ex. apply (f_equal (fun o => match o with Some b => b | None => [] end)) in Ex. cbv beta iota in Ex. rewrite <- Ex. clear Ex x. unfold read_rfc3339.
  assert (H3600 : 0 <= s / 3600 < 24) by (Z.to_euclidean_division_equations; lia).
  assert (Hmm : 0 <= s / 60 mod 60 < 60) by (apply Z.mod_pos_bound; lia).
  assert (Hss : 0 <= s mod 60 < 60) by (apply Z.mod_pos_bound; lia).
  rewrite (take_pad 4) by (cbn; lia). cbn [obind]. rewrite take_here. cbn [obind].
  rewrite (take_pad 2) by (cbn; lia). cbn [obind]. rewrite take_here. cbn [obind].
  rewrite (take_pad 2) by (cbn; lia). cbn [obind]. rewrite take_here. cbn [obind].
  rewrite (take_pad 2) by (cbn; lia). cbn [obind]. rewrite take_here. cbn [obind].
  rewrite (take_pad 2) by (cbn; lia). cbn [obind]. rewrite take_here. cbn [obind].
  rewrite (take_pad 2) by (cbn; lia). cbn [obind].
  rewrite read_fraction_ok; [|apply Z.mod_pos_bound; unfold giga; lia|].
  2: { unfold offset_text. destruct (off =? 0); [split; [reflexivity|discriminate]|]. destruct (_ <? 0); split; try reflexivity; discriminate. }
  rewrite read_offset_ok by exact G3. cbn [obind].
  assert (Hall : (1 <=? m) && (m <=? 12) && (1 <=? d) && (d <=? month_days y m) && (s / 3600 <? 24) && (s / 60 mod 60 <? 60) && (s mod 60 <? 60) = true).
  { repeat (apply andb_true_intro; split); try apply Z.leb_le; try apply Z.ltb_lt; lia. }
  rewrite Hall, Hdoc.
  assert (Es : s / 3600 * 3600 + s / 60 mod 60 * 60 + s mod 60 = s) by (Z.to_euclidean_division_equations; lia).
  replace (local / giga / 86400 * 86400 + s / 3600 * 3600 + s / 60 mod 60 * 60 + s mod 60) with (local / giga)
    by (rewrite <- !Z.add_assoc; rewrite (Z.add_assoc _ (_ * 60)), Es; unfold s; rewrite (Z.div_mod (local / giga) 86400) at 1; lia).
  assert (El : local / giga * giga + local mod giga = local) by (rewrite (Z.div_mod local giga) at 3; [lia|discriminate]).
  rewrite El. f_equal. destruct (Z.eqb_spec off 0) as [E0|E0].
  - f_equal. unfold local. rewrite E0. lia.
  - cbv zeta. replace (t_ns t + (off - Z.quot off 60 * 60) * giga) with (local - Z.quot off 60 * 60 * giga) by (unfold local; lia). reflexivity.
Qed.
Lemma time_text_simple zs t x : time_text zs t = Some x -> forallb simple_char x = true.
Proof.
  unfold time_text. destruct (civil_of_days _) as [[y m] d]. destruct (_ || _ || _)%bool; [discriminate|]. intros Ex.
  apply (f_equal (fun o => match o with Some b => b | None => [] end)) in Ex. cbv beta iota in Ex. rewrite <- Ex. clear Ex x.
  assert (Dg : forall c, is_digit c = true -> simple_char c = true) by (intros c; destruct c; intros E; try discriminate E; reflexivity).
  assert (P : forall w n, forallb simple_char (pad_digits w n) = true).
  { intros w n. apply forallb_forall. intros c I. apply Dg. pose proof (pad_digits_ok w n) as Q. rewrite forallb_forall in Q. auto. }
  assert (F : forall n, forallb simple_char (fraction n) = true).
  { intros n. unfold fraction. destruct (n =? 0); [reflexivity|]. cbn [forallb]. destruct (fraction_trim n) as [k E]. pose proof (P 9%nat n) as Q.
    rewrite E, forallb_app in Q. apply andb_prop in Q as [Q _]. rewrite Q. reflexivity. }
  assert (Ox : forall o, forallb simple_char (offset_text o) = true).
  { intros o. unfold offset_text. destruct (o =? 0); [reflexivity|]. cbn [forallb]. rewrite forallb_app. cbn [forallb]. rewrite !P.
    destruct (_ <? 0); reflexivity. }
  repeat (rewrite forallb_app; cbn [forallb]). rewrite !P, F, Ox. reflexivity.
Qed.
Local Close Scope Z_scope.

(** ** Members *)
Lemma read_app {S} (t : table S) l1 : forall l2 s, read_members t (l1 ++ l2) s = obind (read_members t l1 s) (read_members t l2).
Proof.
  induction l1 as [|[k v] l1 IH]; intros l2 s; [reflexivity|]. cbn [app read_members].
  destruct (unquote k) as [name|]; [|reflexivity]. cbn [obind]. destruct (match entry_of name t with Some f => f v s | None => Some s end); [|reflexivity].
  cbn [obind]. apply IH.
Qed.
(** The members of [l] can be read into [s], giving [s'] *)
Definition reads {S} (t : table S) (l : list (bytes * json)) (s s' : S) : Prop := read_members t l s = Some s'.
Lemma reads_nil {S} (t : table S) s : reads t [] s s.
Proof. reflexivity. Qed.
Lemma reads_app {S} (t : table S) l1 l2 s s' s'' : reads t l1 s s' -> reads t l2 s' s'' -> reads t (l1 ++ l2) s s''.
Proof. unfold reads. intros E1 E2. rewrite read_app, E1. exact E2. Qed.
Lemma reads_one {S A} (t : table S) name get (read : A -> json -> option A) put v x s :
  unquote name = Some name -> entry_of name t = Some (snd (entry name get read put)) -> read (get s) v = Some x -> reads t [(name, v)] s (put x s).
Proof. intros U E R. unfold reads. cbn [read_members]. rewrite U. cbn [obind]. rewrite E. unfold entry. cbn [snd]. rewrite R. reflexivity. Qed.
Lemma reads_int {S} (t : table S) name get put z s : unquote name = Some name -> entry_of name t = Some (snd (entry name get read_int put)) ->
  int64 z = true -> put 0%Z s = s -> reads t (int_member name z) s (put z s).
Proof.
  intros U E I P. unfold int_member. destruct (Z.eqb_spec z 0) as [->|_]; [rewrite P; reflexivity|].
  apply (reads_one t name get read_int put); auto. cbn [read_int]. rewrite int_of_dec. cbn [obind]. now rewrite I.
Qed.
Lemma reads_string {S} (t : table S) name get put x s : unquote name = Some name -> entry_of name t = Some (snd (entry name get read_string put)) ->
  put [] s = s -> reads t (string_member name x) s (put (repair x) s).
Proof.
  intros U E P. unfold string_member. destruct x as [|c x]; [change (repair []) with (@nil byte); rewrite P; reflexivity|].
  apply (reads_one t name get read_string put); auto. cbn [read_string]. apply unquote_escape.
Qed.
Lemma reads_bool {S} (t : table S) name get put b s : unquote name = Some name -> entry_of name t = Some (snd (entry name get read_bool put)) ->
  put false s = s -> reads t (bool_member name b) s (put b s).
Proof.
  intros U E P. unfold bool_member. destruct b; [|rewrite P; reflexivity]. apply (reads_one t name get read_bool put); auto.
Qed.
Definition n_slice (x : slice) : slice := match content x with [] => None | b => Some b end.
Lemma reads_slice {S} (t : table S) name get put x s : unquote name = Some name -> entry_of name t = Some (snd (entry name get read_slice put)) ->
  put None s = s -> reads t (slice_member name x) s (put (n_slice x) s).
Proof.
  intros U E P. unfold slice_member, n_slice. destruct (content x) as [|c y]; [rewrite P; reflexivity|].
  apply (reads_one t name get read_slice put); auto. apply read_slice_b64.
Qed.
Lemma read_elements_ok {A} (read : A -> json -> option A) zero l xs :
  Forall2 (fun v x => read zero v = Some x) l xs -> read_elements read zero [] l = Some xs.
Proof. intros F. induction F as [|v x l xs R F IH]; [reflexivity|]. cbn [read_elements hd tl]. rewrite R. cbn [obind]. rewrite IH. reflexivity. Qed.
Lemma reads_list {S A} (t : table S) name get put (read : A -> json -> option A) zero l xs s :
  unquote name = Some name -> entry_of name t = Some (snd (entry name get (read_list read zero) put)) ->
  get s = [] -> put [] s = s -> Forall2 (fun v x => read zero v = Some x) l xs -> reads t (list_member name l) s (put xs s).
Proof.
  intros U E G P F. unfold list_member. destruct F as [|v x l xs R F]; [rewrite P; reflexivity|].
  apply (reads_one t name get (read_list read zero) put); auto. rewrite G. cbn [read_list]. apply read_elements_ok. now constructor.
Qed.
Lemma reads_strings {S} (t : table S) name get put l s :
  unquote name = Some name -> entry_of name t = Some (snd (entry name get read_strings put)) ->
  get s = [] -> put [] s = s -> reads t (list_member name (strings l)) s (put (map repair l) s).
Proof.
  intros U E G P. apply (reads_list t name get put read_string []); auto. unfold strings. clear. induction l as [|x l IH]; constructor; auto.
  cbn [read_string]. apply unquote_escape.
Qed.
Lemma reads_time {S} zs (t : table S) name get put x m s :
  unquote name = Some name -> entry_of name t = Some (snd (entry name get (read_time zs) put)) -> time_member zs name x = Some m ->
  reads t m s (put (n_time zs x) s).
Proof.
  intros U E M. unfold time_member in M. destruct (time_text zs x) as [r|] eqn:T; [|discriminate]. cbn in M. injection M as <-.
  apply (reads_one t name get (read_time zs) put); auto. cbn [read_time]. now apply read_rfc3339_ok.
Qed.

(** ** Structures: the value read back *)
Section Normal.
  Variable zs : zones.
  Definition n_attr (a : attributes) : attributes :=
    mk_attr (map repair (a_cas a)) (map repair (a_allowed a)) (map repair (a_disallowed a)) (map repair (a_excluded a)).
  Definition n_fields (f : fields) : fields :=
    mk_fields None (f_version f) (f_serial f) (repair (f_domain f)) (n_time zs (f_not_before f)) (n_time zs (f_not_after f)) (f_can_issue f) (f_can_own f)
      (n_slice (f_key f)) (f_key_alg f) (f_sig_alg f) (n_time zs (f_stamp f)) (n_attr (f_attr f)) (n_slice (f_owner_sig f)) (n_slice (f_owner_hash f)).
  Definition n_ts (t : timestamp) : timestamp := mk_ts None (ts_version t) (n_slice (ts_log t)) (n_time zs (ts_added t)) (n_slice (ts_sig t)).
  Definition n_cert (c : cert) : cert :=
    mk_cert (n_fields (c_fields c)) (n_slice (c_issuer_sig c)) (n_slice (c_issuer_hash c)) (map n_ts (c_spcts c)).
  Definition n_rev (r : revocation) : revocation :=
    mk_rev None (r_version r) (r_serial r) (repair (r_domain r)) (n_time zs (r_stamp r)) (n_slice (r_owner_sig r)) (n_slice (r_owner_hash r))
      (n_slice (r_issuer_sig r)) (n_slice (r_issuer_hash r)) (map n_ts (r_spcrts r)).
  (** The integers are of 64 bits *)
  Definition fields_int (f : fields) : Prop :=
    int64 (f_version f) = true /\ int64 (f_serial f) = true /\ int64 (f_key_alg f) = true /\ int64 (f_sig_alg f) = true.
  Definition ts_int (t : timestamp) : Prop := int64 (ts_version t) = true.
  Definition cert_int (c : cert) : Prop := fields_int (c_fields c) /\ Forall ts_int (c_spcts c).
  Definition rev_int (r : revocation) : Prop := int64 (r_version r) = true /\ int64 (r_serial r) = true /\ Forall ts_int (r_spcrts r).

  Ltac state := unfold zero_fields, zero_attr, zero_ts, zero_cert, zero_rev, with_f_raw, with_f_version, with_f_serial, with_f_domain, with_f_not_before, with_f_not_after, with_f_can_issue, with_f_can_own, with_f_key, with_f_key_alg, with_f_sig_alg, with_f_stamp, with_f_attr, with_f_owner_sig, with_f_owner_hash, with_a_cas, with_a_allowed, with_a_disallowed, with_a_excluded, with_ts_raw, with_ts_version, with_ts_log, with_ts_added, with_ts_sig, with_c_fields, with_c_issuer_sig, with_c_issuer_hash, with_c_spcts, with_r_raw, with_r_version, with_r_serial, with_r_domain, with_r_stamp, with_r_owner_sig, with_r_owner_hash, with_r_issuer_sig, with_r_issuer_hash, with_r_spcrts;
    cbn [f_raw f_version f_serial f_domain f_not_before f_not_after f_can_issue f_can_own f_key f_key_alg f_sig_alg f_stamp f_attr f_owner_sig f_owner_hash a_cas a_allowed a_disallowed a_excluded ts_raw ts_version ts_log ts_added ts_sig c_fields c_issuer_sig c_issuer_hash c_spcts r_raw r_version r_serial r_domain r_stamp r_owner_sig r_owner_hash r_issuer_sig r_issuer_hash r_spcrts fst snd].
  Lemma reads_attr a : reads attr_table (match attr_json a with JObj l => l | _ => [] end) zero_attr (n_attr a).
  Proof.
    cbn [attr_json]. state.
    eapply reads_app; [apply (reads_strings _ _ a_cas with_a_cas); reflexivity|]. state.
    eapply reads_app; [apply (reads_strings _ _ a_allowed with_a_allowed); reflexivity|]. state.
    eapply reads_app; [apply (reads_strings _ _ a_disallowed with_a_disallowed); reflexivity|]. state.
    apply (reads_strings _ _ a_excluded with_a_excluded); reflexivity.
  Qed.
  Lemma reads_fields f l : fields_int f -> fields_members zs f = Some l -> reads (fields_table zs) l (zero_fields zs) (n_fields f).
  Proof.
    intros (I1 & I2 & I3 & I4) E. unfold fields_members in E.
    destruct (time_member zs (b_ "NotBefore") (f_not_before f)) as [nb|] eqn:T1; [|discriminate]. cbn [obind] in E.
    destruct (time_member zs (b_ "NotAfter") (f_not_after f)) as [na|] eqn:T2; [|discriminate]. cbn [obind] in E.
    destruct (time_member zs (b_ "TimeStamp") (f_stamp f)) as [ts|] eqn:T3; [|discriminate]. cbn [obind] in E.
    apply (f_equal (fun o => match o with Some x => x | None => [] end)) in E. cbv beta iota in E. rewrite <- E. clear E l. state.
    eapply reads_app; [apply (reads_int _ _ f_version with_f_version); [reflexivity|reflexivity|exact I1|reflexivity]|]. state.
    eapply reads_app; [apply (reads_int _ _ f_serial with_f_serial); [reflexivity|reflexivity|exact I2|reflexivity]|]. state.
    eapply reads_app; [apply (reads_string _ _ f_domain with_f_domain); reflexivity|]. state.
    eapply reads_app; [eapply (reads_time zs _ _ f_not_before with_f_not_before); [| |exact T1]; reflexivity|]. state.
    eapply reads_app; [eapply (reads_time zs _ _ f_not_after with_f_not_after); [| |exact T2]; reflexivity|]. state.
    eapply reads_app; [apply (reads_bool _ _ f_can_issue with_f_can_issue); reflexivity|]. state.
    eapply reads_app; [apply (reads_bool _ _ f_can_own with_f_can_own); reflexivity|]. state.
    eapply reads_app; [apply (reads_slice _ _ f_key with_f_key); reflexivity|]. state.
    eapply reads_app; [apply (reads_int _ _ f_key_alg with_f_key_alg); [reflexivity|reflexivity|exact I3|reflexivity]|]. state.
    eapply reads_app; [apply (reads_int _ _ f_sig_alg with_f_sig_alg); [reflexivity|reflexivity|exact I4|reflexivity]|]. state.
    eapply reads_app; [eapply (reads_time zs _ _ f_stamp with_f_stamp); [| |exact T3]; reflexivity|]. state.
    eapply reads_app; [apply (reads_one _ _ f_attr (read_struct attr_table) with_f_attr); [reflexivity|reflexivity|apply reads_attr]|]. state.
    eapply reads_app; [apply (reads_slice _ _ f_owner_sig with_f_owner_sig); reflexivity|]. state.
    apply (reads_slice _ _ f_owner_hash with_f_owner_hash); reflexivity.
  Qed.
  Lemma reads_ts t l : ts_int t -> ts_members zs t = Some l -> reads (ts_table zs) l (zero_ts zs) (n_ts t).
  Proof.
    intros I1 E. unfold ts_members in E.
    destruct (time_member zs (b_ "AddedTS") (ts_added t)) as [ad|] eqn:T1; [|discriminate]. cbn [obind] in E.
    apply (f_equal (fun o => match o with Some x => x | None => [] end)) in E. cbv beta iota in E. rewrite <- E. clear E l. state.
    eapply reads_app; [apply (reads_int _ _ ts_version with_ts_version); [reflexivity|reflexivity|exact I1|reflexivity]|]. state.
    eapply reads_app; [apply (reads_slice _ _ ts_log with_ts_log); reflexivity|]. state.
    eapply reads_app; [eapply (reads_time zs _ _ ts_added with_ts_added); [| |exact T1]; reflexivity|]. state.
    apply (reads_slice _ _ ts_sig with_ts_sig); reflexivity.
  Qed.
  Lemma stamps_ok l vs : Forall ts_int l -> all_some (ts_json zs) l = Some vs ->
    Forall2 (fun v x => read_struct (ts_table zs) (zero_ts zs) v = Some x) vs (map n_ts l).
  Proof.
    intros F. revert vs. induction F as [|t l I F IH]; intros vs E; cbn [all_some] in E.
    - injection E as <-. constructor.
    - destruct (ts_json zs t) as [v|] eqn:T; [|discriminate]. cbn [obind] in E. destruct (all_some (ts_json zs) l) as [r|] eqn:R; [|discriminate].
      cbn [obind] in E. injection E as <-. cbn [map]. constructor; [|auto]. unfold ts_json in T.
      destruct (ts_members zs t) as [m|] eqn:M; [|discriminate]. cbn in T. injection T as <-. cbn [read_struct]. now apply reads_ts.
  Qed.
  (** Members of the embedded structure *)
  Lemma reads_embedded {S T} get put (t : table T) (t2 : table S) l : forall s x,
    (forall s, put (get s) s = s) -> (forall x s, get (put x s) = x) -> (forall x y s, put y (put x s) = put y s) ->
    (forall k v name, In (k, v) l -> unquote k = Some name -> entry_of name t <> None) ->
    reads t l (get s) x -> reads (embedded get put t ++ t2) l s (put x s).
  Proof.
    intros s x P1 P2 P3. revert s x. induction l as [|[k v] l IH]; intros s x N R.
    - unfold reads in *. cbn in *. injection R as <-. now rewrite P1.
    - unfold reads in *. cbn [read_members] in *. destruct (unquote k) as [name|] eqn:U; [|discriminate]. cbn [obind] in *.
      assert (E : entry_of name (embedded get put t ++ t2) =
        option_map (fun f v s => option_map (fun x => put x s) (f v (get s))) (entry_of name t)).
      { specialize (N k v name (or_introl eq_refl) U). clear - N. induction t as [|[n f] t IHt]; [now elim N|].
        cbn [embedded map app entry_of fst snd] in *. destruct (beqb (fold_name n) (fold_name name)); [reflexivity|]. apply IHt, N. }
      rewrite E. destruct (entry_of name t) as [f|] eqn:Ef; [|now elim (N k v name (or_introl eq_refl) U)]. cbn [option_map].
      destruct (f v (get s)) as [y|]; [|discriminate]. cbn [option_map obind] in *.
      specialize (IH (put y s) x). rewrite P2, P3 in IH. apply IH; [|exact R]. intros k' v' n' I. apply (N k' v' n'). now right.
  Qed.
  (** The names that are written *)
  Definition named (names : list bytes) (l : list (bytes * json)) : Prop := forall k v, In (k, v) l -> In k names.
  Lemma named_app n l1 l2 : named n l1 -> named n l2 -> named n (l1 ++ l2).
  Proof. intros A B k v I. apply in_app_or in I as [I|I]; [apply (A k v I)|apply (B k v I)]. Qed.
  Lemma named_one n k v : In k n -> named n [(k, v)].
  Proof. intros I k' v' [E|[]]. injection E as <- <-. exact I. Qed.
  Lemma named_nil n : named n [].
  Proof. intros k v []. Qed.
  Ltac named_tac := repeat (apply named_app); unfold int_member, string_member, bool_member, slice_member, list_member;
    repeat match goal with
    | |- named _ (if ?b then _ else _) => destruct b
    | |- named _ (match ?x with [] => _ | _ :: _ => _ end) => destruct x
    end; try apply named_nil; try (apply named_one; cbn; tauto).
  Lemma time_named n name t m : In name n -> time_member zs name t = Some m -> named n m.
  Proof. intros I E. unfold time_member in E. destruct (time_text zs t); [|discriminate]. cbn in E. injection E as <-. now apply named_one. Qed.
  Definition table_names {S} (t : table S) : list bytes := map fst t.
  Lemma fields_named f l : fields_members zs f = Some l -> named (table_names (fields_table zs)) l.
  Proof.
    intros E. unfold fields_members in E.
    destruct (time_member zs (b_ "NotBefore") (f_not_before f)) as [nb|] eqn:T1; [|discriminate]. cbn [obind] in E.
    destruct (time_member zs (b_ "NotAfter") (f_not_after f)) as [na|] eqn:T2; [|discriminate]. cbn [obind] in E.
    destruct (time_member zs (b_ "TimeStamp") (f_stamp f)) as [ts|] eqn:T3; [|discriminate]. cbn [obind] in E.
    apply (f_equal (fun o => match o with Some x => x | None => [] end)) in E. cbv beta iota in E. rewrite <- E. clear E l.
    apply (time_named (table_names (fields_table zs))) in T1; [|cbn; tauto]. apply (time_named (table_names (fields_table zs))) in T2; [|cbn; tauto].
    apply (time_named (table_names (fields_table zs))) in T3; [|cbn; tauto].
    named_tac; assumption.
  Qed.
  Lemma ts_named t l : ts_members zs t = Some l -> named (table_names (ts_table zs)) l.
  Proof.
    intros E. unfold ts_members in E. destruct (time_member zs (b_ "AddedTS") (ts_added t)) as [ad|] eqn:T1; [|discriminate]. cbn [obind] in E.
    apply (f_equal (fun o => match o with Some x => x | None => [] end)) in E. cbv beta iota in E. rewrite <- E. clear E l.
    apply (time_named (table_names (ts_table zs))) in T1; [|cbn; tauto]. named_tac; assumption.
  Qed.
  Lemma named_entry {S} (t : table S) l : named (table_names t) l -> (forall k, In k (table_names t) -> unquote k = Some k /\ entry_of k t <> None) ->
    forall k v name, In (k, v) l -> unquote k = Some name -> entry_of name t <> None.
  Proof. intros N A k v name I U. destruct (A k (N k v I)) as [U' E]. congruence. Qed.
  Ltac each_name := let k := fresh in let J := fresh in intros k J; cbn in J; repeat destruct J as [<-|J]; try contradiction; (split; [reflexivity|discriminate]).
  Lemma reads_cert c l : cert_int c -> cert_members zs c = Some l -> reads (cert_table zs) l (zero_cert zs) (n_cert c).
  Proof.
    intros [I F] E. unfold cert_members in E. destruct (fields_members zs (c_fields c)) as [fm|] eqn:M; [|discriminate]. cbn [obind] in E.
    destruct (all_some (ts_json zs) (c_spcts c)) as [vs|] eqn:V; [|discriminate]. cbn [obind] in E.
    apply (f_equal (fun o => match o with Some x => x | None => [] end)) in E. cbv beta iota in E. rewrite <- E. clear E l. state.
    eapply reads_app.
    { apply (reads_embedded c_fields with_c_fields (fields_table zs)); try reflexivity; try (intros [] *; reflexivity); try (intros []; reflexivity).
      - eapply named_entry; [apply (fields_named _ _ M)|]. each_name.
      - apply (reads_fields _ _ I M). }
    eapply reads_app; [apply (reads_slice _ _ c_issuer_sig with_c_issuer_sig); reflexivity|]. state.
    eapply reads_app; [apply (reads_slice _ _ c_issuer_hash with_c_issuer_hash); reflexivity|]. state.
    apply (reads_list _ _ c_spcts with_c_spcts (read_struct (ts_table zs)) (zero_ts zs) _ (map n_ts (c_spcts c))); try reflexivity. now apply stamps_ok.
  Qed.
  Lemma reads_rev r l : rev_int r -> rev_members zs r = Some l -> reads (rev_table zs) l (zero_rev zs) (n_rev r).
  Proof.
    intros (I1 & I2 & F) E. unfold rev_members in E.
    destruct (time_member zs (b_ "TimeStamp") (r_stamp r)) as [ts|] eqn:T1; [|discriminate]. cbn [obind] in E.
    destruct (all_some (ts_json zs) (r_spcrts r)) as [vs|] eqn:V; [|discriminate]. cbn [obind] in E.
    apply (f_equal (fun o => match o with Some x => x | None => [] end)) in E. cbv beta iota in E. rewrite <- E. clear E l. state.
    eapply reads_app; [apply (reads_int _ _ r_version with_r_version); [reflexivity|reflexivity|exact I1|reflexivity]|]. state.
    eapply reads_app; [apply (reads_int _ _ r_serial with_r_serial); [reflexivity|reflexivity|exact I2|reflexivity]|]. state.
    eapply reads_app; [apply (reads_string _ _ r_domain with_r_domain); reflexivity|]. state.
    eapply reads_app; [eapply (reads_time zs _ _ r_stamp with_r_stamp); [| |exact T1]; reflexivity|]. state.
    eapply reads_app; [apply (reads_slice _ _ r_owner_sig with_r_owner_sig); reflexivity|]. state.
    eapply reads_app; [apply (reads_slice _ _ r_owner_hash with_r_owner_hash); reflexivity|]. state.
    eapply reads_app; [apply (reads_slice _ _ r_issuer_sig with_r_issuer_sig); reflexivity|]. state.
    eapply reads_app; [apply (reads_slice _ _ r_issuer_hash with_r_issuer_hash); reflexivity|]. state.
    apply (reads_list _ _ r_spcrts with_r_spcrts (read_struct (ts_table zs)) (zero_ts zs) _ (map n_ts (r_spcrts r))); try reflexivity. now apply stamps_ok.
  Qed.
  Lemma reads_rev_request h : reads rev_request_table (rev_request_members h) None (n_slice h).
  Proof. apply (reads_slice rev_request_table _ (fun h => h) (fun x _ => x)); reflexivity. Qed.
  Lemma reads_sig t e l : ts_int t -> sig_members zs t e = Some l -> reads (sig_table zs) l (zero_ts zs, None) (n_ts t, e).
  Proof.
    intros I E. unfold sig_members in E. destruct (ts_members zs t) as [m|] eqn:M; [|discriminate]. cbn [obind] in E.
    apply (f_equal (fun o => match o with Some x => x | None => [] end)) in E. cbv beta iota in E. rewrite <- E. clear E l. state.
    eapply reads_app.
    { unfold sig_table. apply (reads_embedded fst (fun x s => (x, snd s)) (ts_table zs) _ _ _ (n_ts t)).
      - intros [? ?]; reflexivity.
      - reflexivity.
      - reflexivity.
      - eapply named_entry; [apply (ts_named _ _ M)|]. each_name.
      - apply (reads_ts _ _ I M). }
    cbn [snd]. change (n_ts t, e) with ((fun x s => (fst s, x)) e (n_ts t, None : slice)).
    apply (reads_one _ _ snd read_slice (fun x s => (fst s, x))); [reflexivity|reflexivity|].
    destruct e as [b|]; [apply read_slice_b64|reflexivity].
  Qed.
End Normal.
