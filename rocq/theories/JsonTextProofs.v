(** Proofs about JsonText: escaping is undone by reading, printing by parsing. *)
From Coq Require Import ZArith Lia.
From Verif Require Import Base BaseLemmas UtilModel UtilDuration JsonText.
Local Open Scope nat_scope.

Lemma byte_eqb_refl (a : byte) : Byte.eqb a a = true.
Proof. now apply byte_eqb_eq. Qed.
Lemma byte_N_inj (a b : byte) : Byte.to_N a = Byte.to_N b -> a = b.
Proof. intros E. apply (f_equal Byte.of_N) in E. rewrite !Byte.of_to_N in E. congruence. Qed.

(** ** Wide characters *)
Lemma within_iff lo hi b : within lo hi b = true <-> (lo <= Byte.to_N b <= hi)%N.
Proof. unfold within. rewrite Bool.andb_true_iff, !N.leb_le. lia. Qed.
Ltac wb := unfold two, three, four, cont in *; repeat rewrite ?Bool.andb_true_iff, ?Bool.orb_true_iff, ?within_iff in *.
Lemma two_three a b c d : three a b c = true -> two a d = false.
Proof. intros H. apply Bool.not_true_is_false. intros G. wb. lia. Qed.
Lemma two_four a b c d e : four a b c d = true -> two a e = false.
Proof. intros H. apply Bool.not_true_is_false. intros G. wb. lia. Qed.
Lemma three_four a b c d e f : four a b c d = true -> three a e f = false.
Proof. intros H. apply Bool.not_true_is_false. intros G. wb. lia. Qed.
Lemma wide_split s ch r : wide_char s = Some (ch, r) ->
  s = ch ++ r /\ (forall t, wide_char (ch ++ t) = Some (ch, t)) /\
  (exists a b ch', ch = a :: b :: ch') /\ (forall c, In c ch -> ascii c = false).
Proof.
  assert (A : forall c, (128 <= Byte.to_N c)%N -> ascii c = false) by (intros c Hc; unfold ascii; apply N.ltb_ge; exact Hc).
  unfold wide_char. destruct s as [|a [|b s2]]; try discriminate.
  destruct (two a b) eqn:E2.
  { intros [= <- <-]. split; [reflexivity|]. split; [intros t; cbn [app]; now rewrite E2|].
    split; [eauto|]. intros c [<-|[<-|[]]]; apply A; wb; lia. }
  destruct s2 as [|c s3]; try discriminate. destruct (three a b c) eqn:E3.
  { intros [= <- <-]. split; [reflexivity|]. split; [intros t; cbn [app]; now rewrite E2, E3|].
    split; [eauto|]. intros x [<-|[<-|[<-|[]]]]; apply A; wb; lia. }
  destruct s3 as [|d s4]; try discriminate. destruct (four a b c d) eqn:E4; [|discriminate].
  intros [= <- <-]. split; [reflexivity|]. split; [intros t; cbn [app]; now rewrite E2, E3, E4|].
  split; [eauto|]. intros x [<-|[<-|[<-|[<-|[]]]]]; apply A; wb; lia.
Qed.

(** ** Pieces *)
Lemma pieces_fuel f s : length s <= f -> pieces_upto f s = pieces s.
Proof.
  unfold pieces. enough (G : forall g f s, length s <= f -> length s <= g -> pieces_upto f s = pieces_upto g s) by (intros; apply G; auto).
  clear. induction g as [|g IH]; intros f s Hf Hg.
  - destruct s; [|cbn in Hg; lia]. destruct f; reflexivity.
  - destruct s as [|c s']; [destruct f; reflexivity|]. destruct f; [cbn in Hf; lia|]. cbn [pieces_upto].
    cbn [length] in Hf, Hg. destruct (ascii c); [f_equal; apply IH; lia|].
    destruct (wide_char (c :: s')) as [[ch r]|] eqn:W; [|f_equal; apply IH; lia].
    apply wide_split in W as (E & _ & (a & b & ch' & Ech) & _). apply (f_equal (@length byte)) in E.
    rewrite Ech in E. rewrite app_length in E. cbn [length] in E. f_equal. apply IH; lia.
Qed.
Lemma pieces_nil : pieces [] = [].
Proof. reflexivity. Qed.
Lemma pieces_cons c s : pieces (c :: s) =
  if ascii c then Single c :: pieces s
  else match wide_char (c :: s) with Some (ch, r) => Wide ch :: pieces r | None => Bad c :: pieces s end.
Proof.
  unfold pieces at 1. change (length (c :: s)) with (S (length s)). cbn [pieces_upto].
  destruct (ascii c); [reflexivity|]. destruct (wide_char (c :: s)) as [[ch r]|] eqn:W; [|reflexivity]. f_equal. apply pieces_fuel.
  apply wide_split in W as (E & _ & (a & b & ch' & Ech) & _). apply (f_equal (@length byte)) in E.
  rewrite Ech, app_length in E. cbn [length] in E. lia.
Qed.
Lemma pieces_single c s : ascii c = true -> pieces (c :: s) = Single c :: pieces s.
Proof. intros E. rewrite pieces_cons. now rewrite E. Qed.
Lemma pieces_wide ch s : (exists t, wide_char (ch ++ t) = Some (ch, t)) -> pieces (ch ++ s) = Wide ch :: pieces s.
Proof.
  intros [t W]. apply wide_split in W as (_ & W & (a & b & ch' & ->) & A). specialize (W s).
  cbn [app] in *. rewrite pieces_cons. now rewrite (A a (or_introl eq_refl)), W.
Qed.
Lemma pieces_bad c s : ascii c = false -> wide_char (c :: s) = None -> pieces (c :: s) = Bad c :: pieces s.
Proof. intros A W. rewrite pieces_cons. now rewrite A, W. Qed.
Lemma pieces_ind (P : bytes -> Prop) :
  P [] -> (forall c s, ascii c = true -> P s -> P (c :: s)) ->
  (forall ch s, (forall t, wide_char (ch ++ t) = Some (ch, t)) -> (forall c, In c ch -> ascii c = false) -> P s -> P (ch ++ s)) ->
  (forall c s, ascii c = false -> wide_char (c :: s) = None -> P s -> P (c :: s)) -> forall s, P s.
Proof.
  intros P0 P1 P2 P3 s. remember (length s) as n eqn:En. assert (L : length s <= n) by lia. clear En. revert s L.
  induction n as [|n IH]; intros s L.
  - destruct s; [exact P0|cbn in L; lia].
  - destruct s as [|c s']; [exact P0|]. cbn [length] in L. destruct (ascii c) eqn:A; [apply P1; auto; apply IH; lia|].
    destruct (wide_char (c :: s')) as [[ch r]|] eqn:W; [|apply P3; auto; apply IH; lia].
    apply wide_split in W as (E & W & (a & b & ch' & Ech) & B). rewrite E. apply P2; auto. apply IH.
    apply (f_equal (@length byte)) in E. rewrite Ech, app_length in E. cbn [length] in E. lia.
Qed.

(** The string in which every invalid byte is replaced *)
Definition repair (s : bytes) : bytes :=
  flat_map (fun p => match p with Single c => [c] | Wide ch => ch | Bad _ => replacement end) (pieces s).
Lemma repair_valid s : valid_utf8 s -> repair s = s.
Proof.
  unfold repair. induction s using pieces_ind; intros V.
  - reflexivity.
  - unfold valid_utf8 in *. rewrite pieces_single in * by auto. cbn [flat_map app map]. f_equal. apply IHs. intros x I. apply (V x). now right.
  - unfold valid_utf8 in *. rewrite pieces_wide in * by (exists []; auto). cbn [flat_map app map]. f_equal. apply IHs. intros x I. apply (V x). now right.
  - exfalso. apply (V c). rewrite pieces_bad by auto. now left.
Qed.
Lemma wide_replacement t : wide_char (replacement ++ t) = Some (replacement, t).
Proof. reflexivity. Qed.
Lemma valid_repair s : valid_utf8 (repair s).
Proof.
  unfold repair, valid_utf8. induction s using pieces_ind; intros x.
  - auto.
  - rewrite pieces_single by auto. cbn [flat_map app]. rewrite pieces_single by auto. intros [I|I]; [discriminate|now apply IHs in I].
  - rewrite pieces_wide by (exists []; auto). cbn [flat_map]. rewrite pieces_wide by (exists []; auto).
    intros [I|I]; [discriminate|now apply IHs in I].
  - rewrite pieces_bad by auto. cbn [flat_map]. rewrite pieces_wide by (exists []; apply wide_replacement).
    intros [I|I]; [discriminate|now apply IHs in I].
Qed.
Lemma repair_idem s : repair (repair s) = repair s.
Proof. apply repair_valid, valid_repair. Qed.
Lemma valid_iff s : valid_utf8 s <-> repair s = s.
Proof. split; [apply repair_valid|]. intros <-. apply valid_repair. Qed.
Lemma pieces_repair s : pieces (repair s) = map (fun p => match p with Bad _ => Wide replacement | _ => p end) (pieces s).
Proof.
  unfold repair. induction s using pieces_ind.
  - reflexivity.
  - rewrite pieces_single by auto. cbn [flat_map app map]. rewrite pieces_single by auto. now rewrite IHs.
  - rewrite pieces_wide by (exists []; auto). cbn [flat_map app map]. rewrite pieces_wide by (exists []; auto). now rewrite IHs.
  - rewrite pieces_bad by auto. cbn [flat_map]. rewrite pieces_wide by (exists []; apply wide_replacement). cbn [flat_map app map]. now rewrite IHs.
Qed.
Lemma ascii_valid s : forallb ascii s = true -> valid_utf8 s.
Proof.
  intros A. apply valid_iff. unfold repair. induction s as [|c s IH]; [reflexivity|]. cbn in A. apply andb_prop in A as [A1 A2].
  rewrite pieces_single by auto. cbn [flat_map app map]. f_equal. auto.
Qed.

(** ** Reading what was escaped *)
Lemma hex4_length r n r1 : hex4 r = Some (n, r1) -> length r = 4 + length r1.
Proof.
  unfold hex4. destruct r as [|a [|b [|c [|d r]]]]; try discriminate.
  destruct (hex_value a), (hex_value b), (hex_value c), (hex_value d); try discriminate. intros [= _ <-]. reflexivity.
Qed.
Lemma escaped_length r n r1 : escaped_u r = Some (n, r1) -> length r = 6 + length r1.
Proof.
  unfold escaped_u. destruct r as [|a [|b r]]; try discriminate. destruct (_ && _); [|discriminate].
  intros E. apply hex4_length in E. cbn. lia.
Qed.
Lemma unquote_fuel f s : length s <= f -> unquote_upto f s = unquote s.
Proof.
  unfold unquote.
  enough (G : forall g f s, length s <= f -> length s <= g -> unquote_upto f s = unquote_upto g s) by (intros; apply G; auto).
  clear f s. induction g as [|g IH]; intros f s Hf Hg.
  - destruct s; [|cbn in Hg; lia]. destruct f; reflexivity.
  - destruct s as [|c s']; [destruct f; reflexivity|]. destruct f; [cbn in Hf; lia|]. cbn [unquote_upto].
    cbn [length] in Hf, Hg. destruct (Byte.eqb c bslash).
    + destruct s' as [|e r]; [reflexivity|]. cbn [length] in Hf, Hg. destruct (Byte.eqb e x75).
      * destruct (hex4 r) as [[n r1]|] eqn:E4; [|reflexivity]. apply hex4_length in E4.
        destruct (_ || _); [|f_equal; apply IH; lia].
        destruct (escaped_u r1) as [[m r2]|] eqn:EU; [|f_equal; apply IH; lia]. apply escaped_length in EU.
        destruct (_ && _); f_equal; apply IH; lia.
      * destruct (simple_escape e); [|reflexivity]. f_equal. apply IH; lia.
    + destruct (_ || _); [reflexivity|]. destruct (ascii c); [f_equal; apply IH; lia|].
      destruct (wide_char (c :: s')) as [[ch r]|] eqn:W; [|f_equal; apply IH; lia].
      apply wide_split in W as (E & _ & (a & b & ch' & Ech) & _). apply (f_equal (@length byte)) in E.
      rewrite Ech, app_length in E. cbn [length] in E. f_equal. apply IH; lia.
Qed.
Lemma unquote_nil : unquote [] = Some [].
Proof. reflexivity. Qed.
Lemma unquote_cons c s' : unquote (c :: s') =
      if Byte.eqb c bslash then
        match s' with
        | [] => None
        | e :: r =>
            if Byte.eqb e x75 then
              match hex4 r with
              | None => None
              | Some (n, r1) =>
                  if high_surrogate n || low_surrogate n then
                    match escaped_u r1 with
                    | Some (m, r2) =>
                        if high_surrogate n && low_surrogate m
                        then prepend (encode_rune (65536 + (n - 55296) * 1024 + (m - 56320))) (unquote r2)
                        else prepend replacement (unquote r1)
                    | None => prepend replacement (unquote r1)
                    end
                  else prepend (encode_rune n) (unquote r1)
              end
            else match simple_escape e with None => None | Some o => prepend [o] (unquote r) end
        end
      else if Byte.eqb c dquote || (Byte.to_N c <? 32)%N then None
      else if ascii c then prepend [c] (unquote s')
      else match wide_char (c :: s') with
           | Some (ch, r) => prepend ch (unquote r)
           | None => prepend replacement (unquote s')
           end.
Proof.
  unfold unquote at 1. change (length (c :: s')) with (S (length s')). cbn [unquote_upto].
  destruct (Byte.eqb c bslash).
  - destruct s' as [|e r]; [reflexivity|]. destruct (Byte.eqb e x75).
    + destruct (hex4 r) as [[n r1]|] eqn:E4; [|reflexivity]. apply hex4_length in E4.
      destruct (_ || _); [|f_equal; apply unquote_fuel; cbn; lia].
      destruct (escaped_u r1) as [[m r2]|] eqn:EU; [|f_equal; apply unquote_fuel; cbn; lia]. apply escaped_length in EU.
      destruct (_ && _); f_equal; apply unquote_fuel; cbn; lia.
    + destruct (simple_escape e); [|reflexivity]. f_equal. apply unquote_fuel; cbn; lia.
  - destruct (_ || _); [reflexivity|]. destruct (ascii c); [f_equal; apply unquote_fuel; lia|].
    destruct (wide_char (c :: s')) as [[ch r]|] eqn:W; [|f_equal; apply unquote_fuel; lia].
    apply wide_split in W as (E & _ & (a & b & ch' & Ech) & _). apply (f_equal (@length byte)) in E.
    rewrite Ech, app_length in E. cbn [length] in E. f_equal. apply unquote_fuel; lia.
Qed.
Lemma unquote_ascii c s : ascii c = true -> unquote (esc_ascii c ++ s) = prepend [c] (unquote s).
Proof.
  intros A. destruct c; try discriminate A;
    match goal with |- context [esc_ascii ?c] => let e := eval vm_compute in (esc_ascii c) in change (esc_ascii c) with e end;
    cbn [app]; rewrite unquote_cons; cbv -[unquote prepend]; reflexivity.
Qed.
Lemma ascii_not c d : ascii c = false -> ascii d = true -> Byte.eqb c d = false.
Proof. intros A B. apply Bool.not_true_is_false. intros E. apply byte_eqb_eq in E. congruence. Qed.
Lemma ascii_ge c : ascii c = false -> (Byte.to_N c <? 32)%N = false.
Proof. unfold ascii. rewrite !N.ltb_ge. lia. Qed.
Lemma unquote_wide ch s : (forall t, wide_char (ch ++ t) = Some (ch, t)) -> (forall c, In c ch -> ascii c = false) ->
  unquote (ch ++ s) = prepend ch (unquote s).
Proof.
  intros W A. pose proof (W s) as Ws. destruct (wide_split _ _ _ Ws) as (_ & _ & (a & b & ch' & ->) & _).
  specialize (A a (or_introl eq_refl)). cbn [app] in *. rewrite unquote_cons.
  rewrite (ascii_not a bslash), (ascii_not a dquote), ascii_ge, A, Ws by auto. reflexivity.
Qed.
Lemma unquote_escape s : unquote (escape s) = Some (repair s).
Proof.
  unfold escape, repair. induction s using pieces_ind.
  - reflexivity.
  - rewrite pieces_single by auto. cbn [flat_map esc_piece]. rewrite unquote_ascii by auto. now rewrite IHs.
  - rewrite pieces_wide by (exists []; auto). cbn [flat_map esc_piece]. destruct (beqb ch line_sep) eqn:E1.
    { apply beqb_eq in E1. subst ch. cbn [app]. rewrite unquote_cons. cbv -[unquote prepend pieces flat_map esc_piece app]. rewrite IHs. reflexivity. }
    destruct (beqb ch para_sep) eqn:E2.
    { apply beqb_eq in E2. subst ch. cbn [app]. rewrite unquote_cons. cbv -[unquote prepend pieces flat_map esc_piece app]. rewrite IHs. reflexivity. }
    rewrite unquote_wide by auto. now rewrite IHs.
  - rewrite pieces_bad by auto. cbn [flat_map esc_piece app]. rewrite unquote_cons.
    cbv -[unquote prepend pieces flat_map esc_piece app replacement]. rewrite IHs. reflexivity.
Qed.

Lemma escape_inj a b : escape a = escape b -> repair a = repair b.
Proof. intros E. apply (f_equal unquote) in E. rewrite !unquote_escape in E. congruence. Qed.
Lemma escape_inj_valid a b : valid_utf8 a -> valid_utf8 b -> escape a = escape b -> a = b.
Proof. intros A B E. apply escape_inj in E. now rewrite !repair_valid in E. Qed.

(** ** The scanner on what was written *)
Definition raw_ok (raw : bytes) : Prop := forall r, scan_string (raw ++ dquote :: r) = Some (raw, r).
Lemma raw_nil : raw_ok [].
Proof. intros r. reflexivity. Qed.
Lemma raw_ascii c raw : ascii c = true -> raw_ok raw -> raw_ok (esc_ascii c ++ raw).
Proof.
  intros A R r. specialize (R r). rewrite <- app_assoc.
  destruct c; try discriminate A;
    match goal with |- context [esc_ascii ?c] => let e := eval vm_compute in (esc_ascii c) in change (esc_ascii c) with e end;
    cbn [app]; cbn [scan_string]; rewrite R; reflexivity.
Qed.
Lemma raw_high ch raw : (forall c, In c ch -> ascii c = false) -> raw_ok raw -> raw_ok (ch ++ raw).
Proof.
  intros A R r. rewrite <- app_assoc. induction ch as [|c ch IH]; [apply R|]. cbn [app]. cbn [scan_string].
  assert (Ac : ascii c = false) by (apply A; now left).
  rewrite (ascii_not c dquote), (ascii_not c bslash), ascii_ge by auto. rewrite IH by (intros; apply A; now right). reflexivity.
Qed.
Lemma raw_escape s : raw_ok (escape s).
Proof.
  unfold escape. induction s using pieces_ind.
  - apply raw_nil.
  - rewrite pieces_single by auto. cbn [flat_map esc_piece]. apply raw_ascii; auto.
  - rewrite pieces_wide by (exists []; auto). cbn [flat_map esc_piece].
    destruct (beqb ch line_sep); [intros r; cbn [app]; cbn [scan_string]; rewrite (IHs r); reflexivity|].
    destruct (beqb ch para_sep); [intros r; cbn [app]; cbn [scan_string]; rewrite (IHs r); reflexivity|]. apply raw_high; auto.
  - rewrite pieces_bad by auto. cbn [flat_map esc_piece]. intros r. cbn [app]; cbn [scan_string]. rewrite (IHs r). reflexivity.
Qed.
(** Text without quotes, backslashes and controls *)
Definition simple_char (c : byte) : bool := ascii c && negb (Byte.eqb c dquote || Byte.eqb c bslash || (Byte.to_N c <? 32)%N).
Lemma raw_simple s : forallb simple_char s = true -> raw_ok s.
Proof.
  induction s as [|c s IH]; intros A r; [reflexivity|]. cbn [forallb] in A. apply andb_prop in A as [A1 A2].
  unfold simple_char in A1. apply andb_prop in A1 as [_ A1]. apply Bool.negb_true_iff in A1.
  apply Bool.orb_false_iff in A1 as [A1 A3]. apply Bool.orb_false_iff in A1 as [A1 A4].
  cbn [app]. cbn [scan_string]. now rewrite A1, A3, A4, (IH A2 r).
Qed.
Lemma unquote_simple s : forallb simple_char s = true -> unquote s = Some s.
Proof.
  induction s as [|c s IH]; intros A; [reflexivity|]. cbn [forallb] in A. apply andb_prop in A as [A1 A2].
  unfold simple_char in A1. apply andb_prop in A1 as [A0 A1]. apply Bool.negb_true_iff in A1.
  apply Bool.orb_false_iff in A1 as [A1 A3]. apply Bool.orb_false_iff in A1 as [A1 A4].
  rewrite unquote_cons. now rewrite A1, A3, A4, A0, (IH A2).
Qed.

(** ** Numbers *)
Definition value_end (r : bytes) : Prop := match r with [] => True | c :: _ => c = x2c \/ c = x5d \/ c = x7d end.
Definition num_ok (t : bytes) : Prop :=
  (exists c t', t = c :: t' /\ (c = x2d \/ is_digit c = true)) /\ forall r, value_end r -> scan_number (t ++ r) = Some (t, r).
Lemma digits_rev_last f : forall n, (n < 10 ^ N.of_nat f)%N -> (0 < n)%N ->
  exists p d, digits_rev f n = p ++ [d] /\ d <> x30 /\ is_digit d = true.
Proof.
  induction f as [|f IH]; intros n L P; [cbn in L; lia|]. cbn [digits_rev]. destruct (N.ltb_spec n 10) as [Q|Q].
  - exists [], (digit_byte (n mod 10)). split; [reflexivity|]. rewrite N.mod_small by lia. split.
    + intros E. apply (f_equal Byte.to_N) in E. rewrite digit_byte_N in E by lia. change (Byte.to_N x30) with 48%N in E. lia.
    + apply digit_byte_is. lia.
  - destruct (IH (n / 10)%N) as (p & d & E & Hd).
    + rewrite Nat2N.inj_succ, N.pow_succ_r' in L. apply N.div_lt_upper_bound; lia.
    + apply N.div_str_pos. lia.
    + exists (digit_byte (n mod 10) :: p), d. now rewrite E.
Qed.
Lemma dec_N_head n : (0 < n)%N -> exists c s, dec_N n = c :: s /\ c <> x30 /\ is_digit c = true /\ forallb is_digit s = true.
Proof.
  intros P. unfold dec_N. destruct (digits_rev_last (S (N.to_nat (N.log2 n))) n) as (p & d & E & Hd & D); auto.
  - rewrite Nat2N.inj_succ, N2Nat.id.
    apply N.lt_le_trans with (2 ^ N.succ (N.log2 n))%N; [apply N.log2_spec; lia|]. apply N.pow_le_mono_l. lia.
  - pose proof (digits_rev_digits (S (N.to_nat (N.log2 n))) n) as G. rewrite E in G. rewrite forallb_app in G. apply andb_prop in G as [G _].
    rewrite E, rev_app_distr. cbn [rev app]. exists d, (rev p). repeat split; auto. now rewrite forallb_rev.
Qed.
Lemma take_digits_app p r : forallb is_digit p = true -> match r with [] => True | c :: _ => is_digit c = false end ->
  take_digits (p ++ r) = (p, r).
Proof.
  intros P R. induction p as [|c p IH].
  - destruct r as [|c r]; [reflexivity|]. cbn. now rewrite R.
  - cbn [forallb] in P. apply andb_prop in P as [P1 P2]. cbn [app take_digits]. now rewrite P1, IH.
Qed.
Lemma scan_int_dec n r : value_end r -> scan_int (dec_N n ++ r) = Some (dec_N n, r).
Proof.
  intros R. destruct (N.eq_dec n 0) as [->|Hn]; [reflexivity|].
  destruct (dec_N_head n) as (c & s & -> & Hc & D & Ds); [lia|]. cbn [app scan_int].
  assert (E : Byte.eqb c x30 = false) by (apply Bool.not_true_is_false; intros E; apply byte_eqb_eq in E; contradiction).
  rewrite E, D, take_digits_app; auto. destruct r as [|x r]; auto. destruct R as [->|R']; [reflexivity|].
  destruct R' as [->|R']; [reflexivity|]. subst. reflexivity.
Qed.
Lemma num_dec z : num_ok (dec_Z z).
Proof.
  assert (Tail : forall r, value_end r -> scan_frac r = Some ([], r) /\ scan_exp r = Some ([], r)).
  { intros [|c r]; [split; reflexivity|]. intros [->|R]; [split; reflexivity|]. destruct R as [->|R]; [split; reflexivity|].
    subst. split; reflexivity. }
  unfold dec_Z. destruct (Z.ltb_spec z 0).
  - split; [exists x2d; eauto|]. intros r R. unfold scan_number. cbn [app Byte.eqb]. cbn [Byte.eqb].
    rewrite byte_eqb_refl, scan_int_dec by auto. destruct (Tail r R) as [-> ->]. now rewrite app_nil_r.
  - destruct (dec_N_cons (Z.to_N z)) as (c & s & E & D). split; [eauto 6|]. intros r R.
    pose proof (scan_int_dec (Z.to_N z) r R) as I. rewrite E in *. unfold scan_number. cbn [app] in *.
    rewrite (digit_not_dash c D), I. destruct (Tail r R) as [-> ->]. now rewrite app_nil_r.
Qed.

(** ** Printing and parsing *)
Fixpoint json_size (v : json) : nat :=
  match v with
  | JArr l => S ((fix go l := match l with [] => 0 | x :: l' => json_size x + go l' end) l)
  | JObj l => S ((fix go l := match l with [] => 0 | (_, x) :: l' => json_size x + go l' end) l)
  | _ => 1
  end.
Lemma print_arr l : print (JArr l) = x5b :: commas (map print l) ++ [x5d].
Proof. reflexivity. Qed.
Definition member (kv : bytes * json) : bytes := quoted (fst kv) ++ x3a :: print (snd kv).
Lemma print_obj l : print (JObj l) = x7b :: commas (map member l) ++ [x7d].
Proof.
  cbn [print]. f_equal. f_equal. f_equal. induction l as [|[k v] l IH]; [reflexivity|]. cbn [map]. rewrite <- IH. reflexivity.
Qed.
Lemma json_ind' (P : json -> Prop) :
  P JNull -> (forall b, P (JBool b)) -> (forall t, P (JNum t)) -> (forall r, P (JStr r)) ->
  (forall l, Forall P l -> P (JArr l)) -> (forall l, Forall (fun kv => P (snd kv)) l -> P (JObj l)) -> forall v, P v.
Proof.
  intros H0 H1 H2 H3 H4 H5. fix IH 1. intros [| | | |l|l]; [exact H0|apply H1|apply H2|apply H3| |].
  - apply H4. induction l as [|v l IHl]; constructor; [apply IH|exact IHl].
  - apply H5. induction l as [|[k v] l IHl]; constructor; [apply IH|exact IHl].
Qed.
(** Every string and number in it is well formed *)
Fixpoint json_ok (v : json) : Prop :=
  match v with
  | JNum t => num_ok t
  | JStr r => raw_ok r
  | JArr l => (fix go l := match l with [] => True | x :: l' => json_ok x /\ go l' end) l
  | JObj l => (fix go l := match l with [] => True | (k, x) :: l' => raw_ok k /\ json_ok x /\ go l' end) l
  | _ => True
  end.
Lemma ok_arr l : json_ok (JArr l) <-> Forall json_ok l.
Proof.
  cbn. induction l as [|x l IH]; [split; auto|]. rewrite IH. split; [intros [A B]; now constructor|].
  intros F. inversion F; subst. auto.
Qed.
Lemma ok_obj l : json_ok (JObj l) <-> Forall (fun kv => raw_ok (fst kv) /\ json_ok (snd kv)) l.
Proof.
  cbn. induction l as [|[k x] l IH]; [split; auto|]. rewrite IH. split; [intros (A & B & C); now constructor|].
  intros F. inversion F; subst. cbn in *. intuition.
Qed.
Lemma print_head v : json_ok v -> exists c t, print v = c :: t /\ json_space c = false /\ c <> x5d.
Proof.
  destruct v as [|b|t|r|l|l]; intros K.
  - repeat eexists. discriminate.
  - destruct b; repeat eexists; discriminate.
  - destruct K as [(c & t' & -> & D) _]. exists c, t'. split; [reflexivity|].
    destruct D as [->|D]; [split; [reflexivity|discriminate]|]. split; [|intros ->; discriminate].
    unfold json_space. unfold is_digit in D. apply andb_prop in D as [D1 D2]. apply N.leb_le in D1, D2.
    assert (X : forall d, (Byte.to_N d < 48)%N -> Byte.eqb c d = false).
    { intros d Hd. apply Bool.not_true_is_false. intros E. apply byte_eqb_eq in E. subst. lia. }
    rewrite !X; [reflexivity|..]; cbn; lia.
  - repeat eexists. discriminate.
  - repeat eexists. discriminate.
  - repeat eexists. discriminate.
Qed.
Lemma skip_head c t r : json_space c = false -> skip_space ((c :: t) ++ r) = (c :: t) ++ r.
Proof. intros E. cbn. now rewrite E. Qed.
Definition parses (v : json) : Prop :=
  json_ok v -> forall r f, value_end r -> S (2 * length (print v)) <= f -> parse_value f (print v ++ r) = Some (v, r).
Lemma num_first c : c = x2d \/ is_digit c = true ->
  json_space c = false /\ Byte.eqb c x7b = false /\ Byte.eqb c x5b = false /\ Byte.eqb c dquote = false /\
  Byte.eqb c x74 = false /\ Byte.eqb c x66 = false /\ Byte.eqb c x6e = false.
Proof. intros [->|D]; [repeat split; reflexivity|]. destruct c; try discriminate D; repeat split; reflexivity. Qed.
Ltac side := solve [assumption | discriminate | lia | cbn [value_end]; auto].
Lemma parse_elements_ok l : Forall parses l -> Forall json_ok l -> l <> [] -> forall r f,
  2 + 2 * length (commas (map print l)) <= f -> parse_elements f (commas (map print l) ++ x5d :: r) = Some (l, r).
Proof.
  induction l as [|v l IH]; intros P K N r f F; [contradiction|]. inversion P as [|? ? Pv Pl]; subst. inversion K as [|? ? Kv Kl]; subst.
  destruct f as [|f]; [lia|]. cbn [parse_elements]. destruct l as [|v2 l].
  - cbn [map commas] in *. rewrite Pv by side. reflexivity.
  - change (commas (map print (v :: v2 :: l))) with (print v ++ x2c :: commas (map print (v2 :: l))) in *.
    rewrite app_length in F. cbn [length] in F.
    rewrite <- app_assoc. cbn [app]. rewrite Pv by side. change (skip_space (x2c :: ?t)) with (x2c :: t). cbv iota. rewrite byte_eqb_refl.
    rewrite IH by side. reflexivity.
Qed.
Lemma member_app k v t : member (k, v) ++ t = dquote :: k ++ dquote :: x3a :: print v ++ t.
Proof. unfold member, quoted. cbn [fst snd app]. rewrite <- !app_assoc. reflexivity. Qed.
Lemma member_length k v : length (member (k, v)) = 3 + length k + length (print v).
Proof. unfold member, quoted. cbn [fst snd app length]. rewrite !app_length. cbn [length]. lia. Qed.
Lemma parse_members_ok l : Forall (fun kv => parses (snd kv)) l -> Forall (fun kv => raw_ok (fst kv) /\ json_ok (snd kv)) l -> l <> [] -> forall r f,
  2 + 2 * length (commas (map member l)) <= f -> parse_members f (commas (map member l) ++ x7d :: r) = Some (l, r).
Proof.
  induction l as [|[k v] l IH]; intros P K N r f F; [contradiction|]. inversion P as [|? ? Pv Pl]; subst. inversion K as [|? ? [Kk Kv] Kl]; subst.
  cbn [fst snd] in *. destruct f as [|f]; [lia|]. destruct l as [|v2 l].
  - change (commas (map member [(k, v)])) with (member (k, v)) in *. rewrite member_length in F. rewrite member_app.
    cbn [parse_members]. change (skip_space (dquote :: ?t)) with (dquote :: t). cbv iota. rewrite byte_eqb_refl, Kk.
    change (skip_space (x3a :: ?t)) with (x3a :: t). cbv iota. rewrite byte_eqb_refl, Pv by side. reflexivity.
  - change (commas (map member ((k, v) :: v2 :: l))) with (member (k, v) ++ x2c :: commas (map member (v2 :: l))) in *.
    rewrite app_length, member_length in F. cbn [length] in F. rewrite <- app_assoc, member_app. cbn [app].
    cbn [parse_members]. change (skip_space (dquote :: ?t)) with (dquote :: t). cbv iota. rewrite byte_eqb_refl, Kk.
    change (skip_space (x3a :: ?t)) with (x3a :: t). cbv iota. rewrite byte_eqb_refl, Pv by side.
    change (skip_space (x2c :: ?t)) with (x2c :: t). cbv iota. rewrite byte_eqb_refl.
    rewrite IH by side. reflexivity.
Qed.
Lemma parse_print_value v : parses v.
Proof.
  induction v as [|b|t|raw|l IH|l IH] using json_ind'; intros K r f R F; destruct f as [|f]; try (cbn in F; lia).
  - reflexivity.
  - destruct b; reflexivity.
  - destruct K as [(c & t' & -> & D) S]. specialize (S r R). cbn [print app] in *.
    destruct (num_first c D) as (X0 & X1 & X2 & X3 & X4 & X5 & X6). cbn [parse_value]. cbn [skip_space]. rewrite X0, X1, X2, X3, X4, X5, X6, S. reflexivity.
  - cbn [json_ok] in K. unfold raw_ok in K. cbn [print]. unfold quoted. cbn [app]. rewrite <- app_assoc. cbn [app].
    cbn [parse_value]. change (skip_space (dquote :: ?t)) with (dquote :: t). cbv iota.
    change (Byte.eqb dquote x7b) with false. change (Byte.eqb dquote x5b) with false. rewrite byte_eqb_refl, K. reflexivity.
  - rewrite ok_arr in K. rewrite print_arr in *. cbn [app length] in *. rewrite <- app_assoc. cbn [app].
    rewrite app_length in F. cbn [length] in F. cbn [parse_value]. change (skip_space (x5b :: ?t)) with (x5b :: t). cbv iota.
    change (Byte.eqb x5b x7b) with false. rewrite byte_eqb_refl. cbv iota.
    destruct l as [|v l]; [reflexivity|]. pose proof (parse_elements_ok (v :: l) IH K ltac:(discriminate) r f ltac:(lia)) as E.
    rewrite E. inversion K as [|? ? Kv _]; subst. destruct (print_head v Kv) as (c & t & Hv & Sp & Nc).
    assert (X : exists t', commas (map print (v :: l)) ++ x5d :: r = c :: t').
    { destruct l; cbn [map commas]; rewrite Hv; cbn [app]; eauto. }
    destruct X as [t' X]. rewrite X. cbn [skip_space]. rewrite Sp.
    destruct (Byte.eqb c x5d) eqn:B; [apply byte_eqb_eq in B; contradiction|reflexivity].
  - rewrite ok_obj in K. rewrite print_obj in *. cbn [app length] in *. rewrite <- app_assoc. cbn [app].
    rewrite app_length in F. cbn [length] in F. cbn [parse_value]. change (skip_space (x7b :: ?t)) with (x7b :: t). cbv iota.
    rewrite byte_eqb_refl. cbv iota.
    destruct l as [|v l]; [reflexivity|]. pose proof (parse_members_ok (v :: l) IH K ltac:(discriminate) r f ltac:(lia)) as E.
    rewrite E. assert (X : exists t', commas (map member (v :: l)) ++ x7d :: r = dquote :: t').
    { destruct l; cbn [map commas]; unfold member at 1, quoted; cbn [app]; eauto. }
    destruct X as [t' X]. rewrite X. reflexivity.
Qed.
Lemma parse_print v : json_ok v -> parse (print v) = Some v.
Proof.
  intros K. unfold parse. pose proof (parse_print_value v K [] (S (2 * length (print v))) I ltac:(lia)) as E.
  rewrite app_nil_r in E. now rewrite E.
Qed.
Lemma print_inj v w : json_ok v -> json_ok w -> print v = print w -> v = w.
Proof. intros Kv Kw E. apply (f_equal parse) in E. rewrite !parse_print in E by auto. congruence. Qed.
