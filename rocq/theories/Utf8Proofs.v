(** Which bytes are UTF-8 (RFC 3629), which texts are strings of JSON (RFC 8259) and which names of members are alike, stated on code points. *)
From Coq Require Import ZArith Lia.
From Verif Require Import Base BaseLemmas UtilModel UtilDuration JsonText JsonTextProofs JsonModel.
Local Open Scope N_scope.

(** A code point that is no surrogate, and its bytes *)
Definition scalar (n : N) : Prop := n < 55296 \/ 57344 <= n < 1114112.
Definition tail_byte (y : N) (b : byte) : Prop := y < 64 /\ Byte.to_N b = 128 + y.
Inductive char : N -> bytes -> Prop :=
| char1 n a : n < 128 -> Byte.to_N a = n -> char n [a]
| char2 x y a b : 128 <= x * 64 + y < 2048 -> Byte.to_N a = 192 + x -> tail_byte y b -> char (x * 64 + y) [a; b]
| char3 x y z a b c : 2048 <= x * 4096 + y * 64 + z < 65536 -> scalar (x * 4096 + y * 64 + z) ->
    Byte.to_N a = 224 + x -> tail_byte y b -> tail_byte z c -> char (x * 4096 + y * 64 + z) [a; b; c]
| char4 x y z w a b c d : 65536 <= x * 262144 + y * 4096 + z * 64 + w < 1114112 ->
    Byte.to_N a = 240 + x -> tail_byte y b -> tail_byte z c -> tail_byte w d -> char (x * 262144 + y * 4096 + z * 64 + w) [a; b; c; d].

Lemma char_wide n bs : char n bs -> (exists a, bs = [a] /\ ascii a = true) \/ forall t, wide_char (bs ++ t) = Some (bs, t).
Proof.
  intros C. inversion C; subst; [left; exists a; split; [reflexivity|now apply N.ltb_lt]|right|right|right]; intros t; cbn [app wide_char].
  - assert (T : two a b = true) by (unfold tail_byte in *; wb; lia). now rewrite T.
  - assert (T : three a b c = true) by (unfold tail_byte, scalar in *; wb; lia).
    now rewrite (two_three a b c b T), T.
  - assert (T : four a b c d = true) by (unfold tail_byte in *; wb; lia).
    now rewrite (two_four a b c d b T), (three_four a b c d b c T), T.
Qed.
Lemma wide_is_char ch : (exists t, wide_char (ch ++ t) = Some (ch, t)) -> exists n, char n ch.
Proof.
  intros [t W]. apply wide_split in W as (_ & W & _ & _). specialize (W []). rewrite app_nil_r in W. unfold wide_char in W.
  destruct ch as [|a [|b r]]; try discriminate. destruct (two a b) eqn:T2.
  { assert (r = []) by congruence. subst r. exists ((Byte.to_N a - 192) * 64 + (Byte.to_N b - 128)). constructor; unfold tail_byte; wb; lia. }
  destruct r as [|c r]; try discriminate. destruct (three a b c) eqn:T3.
  { assert (r = []) by congruence. subst r. exists ((Byte.to_N a - 224) * 4096 + (Byte.to_N b - 128) * 64 + (Byte.to_N c - 128)). clear T2. constructor; unfold tail_byte, scalar; wb; lia. }
  destruct r as [|d r]; try discriminate. destruct (four a b c d) eqn:T4; [|discriminate].
  assert (r = []) by congruence. subst r. exists ((Byte.to_N a - 240) * 262144 + (Byte.to_N b - 128) * 4096 + (Byte.to_N c - 128) * 64 + (Byte.to_N d - 128)).
  clear T2 T3. constructor; unfold tail_byte; wb; lia.
Qed.
Lemma ascii_char c : ascii c = true -> char (Byte.to_N c) [c].
Proof. intros A. apply N.ltb_lt in A. now constructor. Qed.
Lemma char_cons_utf8 bs s : (exists n, char n bs) -> (valid_utf8 (bs ++ s) <-> valid_utf8 s).
Proof.
  intros [n C]. unfold valid_utf8. destruct (char_wide n bs C) as [(a & -> & A)|W].
  - cbn [app]. rewrite pieces_single by exact A. split; intros H c I; apply (H c); [now right|destruct I as [I|I]; [discriminate|exact I]].
  - rewrite pieces_wide by (exists []; apply W). split; intros H c I; apply (H c); [now right|destruct I as [I|I]; [discriminate|exact I]].
Qed.
Lemma utf8_iff s : valid_utf8 s <-> exists l cs, Forall2 char l cs /\ s = concat cs.
Proof.
  split.
  - induction s using pieces_ind; intros V.
    + exists [], []. split; [constructor|reflexivity].
    + pose proof (ascii_char c H) as C. change (c :: s) with ([c] ++ s) in V. apply char_cons_utf8 in V; [|eauto]. destruct (IHs V) as (l & cs & F & ->).
      exists (Byte.to_N c :: l), ([c] :: cs). split; [now constructor|reflexivity].
    + destruct (wide_is_char ch) as [n C]; [exists []; auto|]. apply char_cons_utf8 in V; [|eauto]. destruct (IHs V) as (l & cs & F & ->).
      exists (n :: l), (ch :: cs). split; [now constructor|reflexivity].
    + exfalso. apply (V c). rewrite pieces_bad by auto. now left.
  - intros (l & cs & F & ->). induction F as [|n bs l cs C F IH]; [intros c []|]. cbn [concat]. apply char_cons_utf8; eauto.
Qed.
Lemma char_inj n m bs r bs' r' : char n bs -> char m bs' -> bs ++ r = bs' ++ r' -> n = m /\ bs = bs' /\ r = r'.
Proof.
  intros C D E.
  assert (B : bs = bs' /\ r = r').
  { destruct (char_wide n bs C) as [(a & -> & A)|W], (char_wide m bs' D) as [(a' & -> & A')|W'].
    - cbn in E. injection E as -> ->. auto.
    - pose proof (W' r') as X. rewrite <- E in X. pose proof (wide_split _ _ _ X) as (_ & _ & (p & q & ch & ->) & Na). cbn in E. injection E as -> _.
      rewrite (Na p (or_introl eq_refl)) in A. discriminate.
    - pose proof (W r) as X. rewrite E in X. pose proof (wide_split _ _ _ X) as (_ & _ & (p & q & ch & ->) & Na). cbn in E. injection E as -> _.
      rewrite (Na _ (or_introl eq_refl)) in A'. discriminate.
    - pose proof (W r) as X. rewrite E, W' in X. now injection X as -> ->. }
  destruct B as [<- <-]. split; [|auto]. clear E. destruct C; inversion D; subst; unfold tail_byte in *; lia.
Qed.

(** ** The characters of a string in JSON *)
Definition hexd (v : N) (c : byte) : Prop := v < 10 /\ Byte.to_N c = 48 + v \/ 10 <= v < 16 /\ (Byte.to_N c = 87 + v \/ Byte.to_N c = 55 + v).
Inductive four_hex : N -> bytes -> Prop :=
| four_hex_intro x y z w a b c d : hexd x a -> hexd y b -> hexd z c -> hexd w d -> four_hex (x * 4096 + y * 256 + z * 16 + w) [a; b; c; d].
Definition shorts : list (byte * N) := [(x22, 34); (x5c, 92); (x2f, 47); (x62, 8); (x66, 12); (x6e, 10); (x72, 13); (x74, 9)].
Inductive jchar : N -> bytes -> Prop :=
| jplain n bs : char n bs -> 32 <= n -> n <> 34 -> n <> 92 -> jchar n bs
| jshort e n : In (e, n) shorts -> jchar n [x5c; e]
| jhex n h : four_hex n h -> scalar n -> jchar n (x5c :: x75 :: h)
| jpair n m h k : four_hex n h -> four_hex m k -> 55296 <= n < 56320 -> 56320 <= m < 57344 ->
    jchar (65536 + (n - 55296) * 1024 + (m - 56320)) (x5c :: x75 :: h ++ x5c :: x75 :: k).
(** What has no character: a byte that is not UTF-8, half of a pair *)
Inductive lossy : bytes -> Prop :=
| lossy_byte c : 128 <= Byte.to_N c -> lossy [c]
| lossy_half n h : four_hex n h -> 55296 <= n < 57344 -> lossy (x5c :: x75 :: h).

Lemma hexd_iff c v : hex_value c = Some v <-> hexd v c.
Proof.
  unfold hex_value, hexd. destruct (within 48 57 c) eqn:A; [apply within_iff in A; split; [intros [= <-]; lia|intros H; f_equal; lia]|].
  destruct (within 97 102 c) eqn:B; [apply within_iff in B; split; [intros [= <-]; lia|intros H; f_equal; lia]|].
  destruct (within 65 70 c) eqn:C; [apply within_iff in C; split; [intros [= <-]; lia|intros H; f_equal; lia]|].
  split; [discriminate|]. intros H. exfalso.
  destruct H as [H|H]; [enough (within 48 57 c = true) by congruence; apply within_iff; lia|].
  destruct H as [H1 [H|H]]; [enough (within 97 102 c = true) by congruence; apply within_iff; lia|enough (within 65 70 c = true) by congruence; apply within_iff; lia].
Qed.
Lemma hex4_iff s n r : hex4 s = Some (n, r) <-> exists h, four_hex n h /\ s = h ++ r.
Proof.
  split.
  - unfold hex4. destruct s as [|a [|b [|c [|d s]]]]; try discriminate.
    destruct (hex_value a) as [x|] eqn:A; [|discriminate]. destruct (hex_value b) as [y|] eqn:B; [|discriminate].
    destruct (hex_value c) as [z|] eqn:C; [|discriminate]. destruct (hex_value d) as [w|] eqn:D; [|discriminate].
    intros [= <- <-]. exists [a; b; c; d]. split; [constructor; now apply hexd_iff|reflexivity].
  - intros (h & F & ->). destruct F as [x y z w a b c d A B C D]. cbn [app hex4].
    apply hexd_iff in A, B, C, D. now rewrite A, B, C, D.
Qed.
Lemma byte_at_to n : n < 256 -> Byte.to_N (byte_at n) = n.
Proof.
  intros H. unfold byte_at. destruct (Byte.of_N n) as [b|] eqn:E; [now apply Byte.to_of_N|].
  exfalso. apply Byte.of_N_None_iff in E. lia.
Qed.
Lemma encode_char n : scalar n -> char n (encode_rune n).
Proof.
  intros S. unfold scalar in S. unfold encode_rune. destruct (N.ltb_spec n 128) as [A|A]; [constructor; [exact A|apply byte_at_to; lia]|].
  pose proof (N.div_mod n 64 ltac:(lia)) as D. pose proof (N.mod_lt n 64 ltac:(lia)) as M.
  pose proof (N.div_mod (n / 64) 64 ltac:(lia)) as D2. pose proof (N.mod_lt (n / 64) 64 ltac:(lia)) as M2.
  pose proof (N.div_mod (n / 64 / 64) 64 ltac:(lia)) as D3. pose proof (N.mod_lt (n / 64 / 64) 64 ltac:(lia)) as M3.
  rewrite N.div_div in D2, D3 by lia. rewrite N.div_div in D3 by lia. rewrite N.div_div in M3 by lia. change (64 * 64) with 4096 in *. change (4096 * 64) with 262144 in *.
  remember (n / 64) as q1 eqn:Q1. remember (n / 4096) as q2 eqn:Q2. remember (n / 262144) as q3 eqn:Q3.
  remember (n mod 64) as r1 eqn:R1. remember (q1 mod 64) as r2 eqn:R2. remember (q2 mod 64) as r3 eqn:R3. clear Q1 Q2 Q3 R1 R2 R3.
  destruct (N.ltb_spec n 2048) as [B|B].
  { replace n with (q1 * 64 + r1) at 1 by lia. apply char2; unfold tail_byte; rewrite ?byte_at_to by lia; lia. }
  replace ((55296 <=? n) && (n <? 57344))%bool with false by (symmetry; apply Bool.andb_false_iff; rewrite N.leb_gt, N.ltb_ge; lia).
  destruct (N.ltb_spec n 65536) as [E|E].
  { replace n with (q2 * 4096 + r2 * 64 + r1) at 1 by lia. apply char3; unfold tail_byte, scalar; rewrite ?byte_at_to by lia; lia. }
  replace n with (q3 * 262144 + r3 * 4096 + r2 * 64 + r1) at 1 by lia.
  apply char4; unfold tail_byte; rewrite ?byte_at_to by lia; lia.
Qed.
Lemma char_scalar n bs : char n bs -> scalar n.
Proof. intros C. destruct C; unfold scalar in *; lia. Qed.
Lemma char_encode n bs : char n bs -> bs = encode_rune n.
Proof.
  intros C. pose proof (encode_char n (char_scalar n bs C)) as D.
  destruct C; inversion D; subst; unfold tail_byte in *; try lia; repeat f_equal; apply byte_N_inj; lia.
Qed.

(** ** Reading strings *)
Lemma eqb_N a b : Byte.to_N a <> Byte.to_N b -> Byte.eqb a b = false.
Proof. intros H. apply Bool.not_true_is_false. intros E. apply byte_eqb_eq in E. congruence. Qed.
Lemma high_iff n : high_surrogate n = true <-> 55296 <= n < 56320.
Proof. unfold high_surrogate. rewrite Bool.andb_true_iff, N.leb_le, N.ltb_lt. lia. Qed.
Lemma low_iff n : low_surrogate n = true <-> 56320 <= n < 57344.
Proof. unfold low_surrogate. rewrite Bool.andb_true_iff, N.leb_le, N.ltb_lt. lia. Qed.
Lemma not_surrogate n : scalar n -> (high_surrogate n || low_surrogate n)%bool = false.
Proof.
  intros S. unfold scalar in S. apply Bool.orb_false_iff. split; apply Bool.not_true_is_false; rewrite ?high_iff, ?low_iff; lia.
Qed.
Lemma four_hex_lt n h : four_hex n h -> n < 65536.
Proof. intros F. destruct F. unfold hexd in *. lia. Qed.
Lemma read_jchar n raw bs s : jchar n raw -> char n bs -> unquote (raw ++ s) = prepend bs (unquote s).
Proof.
  intros J C. destruct J as [n bs' C' L Q B|e n I|n h F S|n m h k F G Hn Hm].
  - destruct (char_inj _ _ bs [] bs' [] C C') as (_ & <- & _).
    { rewrite !app_nil_r. rewrite (char_encode _ _ C). symmetry. now apply char_encode. }
    destruct (char_wide n bs C) as [(a & -> & A)|W].
    + inversion C; subst. cbn [app]. rewrite unquote_cons.
      rewrite (eqb_N a bslash), (eqb_N a dquote), A by (cbn; lia). replace (Byte.to_N a <? 32) with false by (symmetry; now apply N.ltb_ge). reflexivity.
    + apply unquote_wide; [exact W|]. pose proof (W []) as X. apply wide_split in X. tauto.
  - assert (bs = [byte_at n]).
    { rewrite (char_encode _ _ C). unfold shorts in I. cbn in I. repeat (destruct I as [I|I]; [injection I as <- <-; reflexivity|]). destruct I. }
    subst bs. unfold shorts in I. cbn [In] in I.
    repeat (destruct I as [I|I]; [injection I as <- <-; cbn [app]; rewrite unquote_cons; cbv -[unquote prepend]; reflexivity|]). destruct I.
  - cbn [app]. rewrite unquote_cons. change (Byte.eqb x5c bslash) with true. change (Byte.eqb x75 x75) with true. cbv iota.
    assert (H : hex4 (h ++ s) = Some (n, s)) by (apply hex4_iff; eauto). rewrite H, (not_surrogate n S). now rewrite (char_encode _ _ C).
  - cbn [app]. rewrite unquote_cons. change (Byte.eqb x5c bslash) with true. change (Byte.eqb x75 x75) with true. cbv iota.
    rewrite <- app_assoc. cbn [app].
    assert (H : forall r, hex4 (h ++ r) = Some (n, r)) by (intros r; apply hex4_iff; eauto). rewrite H.
    assert (K : escaped_u (x5c :: x75 :: k ++ s) = Some (m, s)) by (cbn [escaped_u]; change (Byte.eqb x5c bslash && Byte.eqb x75 x75)%bool with true; cbv iota; apply hex4_iff; eauto).
    rewrite K. rewrite (proj2 (high_iff n) Hn), (proj2 (low_iff m) Hm). cbn [orb andb]. now rewrite (char_encode _ _ C).
Qed.
Lemma read_string_chars l raws values : Forall2 jchar l raws -> Forall2 char l values -> unquote (concat raws) = Some (concat values).
Proof.
  intros F. revert values. induction F as [|n raw l raws J F IH]; intros values G; inversion G; subst; [reflexivity|].
  cbn [concat]. rewrite (read_jchar n raw y) by assumption. rewrite (IH l') by assumption. reflexivity.
Qed.
Lemma replacement_char : char 65533 replacement.
Proof. change replacement with (encode_rune 65533). apply encode_char. unfold scalar. lia. Qed.
Lemma surrogate_iff n : (high_surrogate n || low_surrogate n)%bool = true <-> 55296 <= n < 57344.
Proof. rewrite Bool.orb_true_iff, high_iff, low_iff. lia. Qed.
Lemma string_read raw : forall v, unquote raw = Some v -> exists l raws values,
  Forall2 (fun n r => jchar n r \/ n = 65533 /\ lossy r) l raws /\ Forall2 char l values /\ raw = concat raws /\ v = concat values.
Proof.
  remember (length raw) as f eqn:Ef. assert (L : (length raw <= f)%nat) by lia. clear Ef. revert raw L. induction f as [|f IH]; intros raw L v E.
  { destruct raw; [|cbn in L; lia]. injection E as <-. exists [], [], []. repeat split; constructor. }
  destruct raw as [|c raw]; [injection E as <-; exists [], [], []; repeat split; constructor|].
  assert (P : forall n r p rest, c :: raw = r ++ rest -> r <> [] -> (jchar n r \/ n = 65533 /\ lossy r) -> char n p -> prepend p (unquote rest) = Some v ->
    exists l raws values, Forall2 (fun n r => jchar n r \/ n = 65533 /\ lossy r) l raws /\ Forall2 char l values /\ c :: raw = concat raws /\ v = concat values).
  { intros n r p rest Er Nr J C X. destruct (unquote rest) as [v'|] eqn:U; [|discriminate]. injection X as <-.
    destruct (IH rest) with (v := v') as (l & raws & values & F & G & -> & ->); [|exact U|].
    { apply (f_equal (@length byte)) in Er. rewrite app_length in Er. destruct r; [congruence|]. cbn [length] in *. lia. }
    exists (n :: l), (r :: raws), (p :: values). repeat split; [now constructor|now constructor|exact Er]. }
  rewrite unquote_cons in E. destruct (Byte.eqb c bslash) eqn:B.
  - apply byte_eqb_eq in B. subst c. destruct raw as [|e r]; [discriminate|]. destruct (Byte.eqb e x75) eqn:U.
    + apply byte_eqb_eq in U. subst e. destruct (hex4 r) as [[n r1]|] eqn:H; [|discriminate]. apply hex4_iff in H as (h & F & ->).
      assert (Lh : forall rest, bslash :: x75 :: h ++ rest = (x5c :: x75 :: h) ++ rest) by reflexivity.
      destruct (high_surrogate n || low_surrogate n)%bool eqn:SU.
      * apply surrogate_iff in SU.
        assert (Half : prepend replacement (unquote r1) = Some v -> exists l raws values, Forall2 (fun n r => jchar n r \/ n = 65533 /\ lossy r) l raws /\
            Forall2 char l values /\ bslash :: x75 :: h ++ r1 = concat raws /\ v = concat values).
        { intros X. apply (P 65533 (x5c :: x75 :: h) replacement r1); auto; [discriminate|right; split; [reflexivity|now apply (lossy_half n)]|exact replacement_char]. }
        destruct (escaped_u r1) as [[m r2]|] eqn:EU; [|now apply Half]. destruct (high_surrogate n && low_surrogate m)%bool eqn:HL; [|now apply Half].
        apply andb_prop in HL as [Hn Hm]. apply high_iff in Hn. apply low_iff in Hm.
        unfold escaped_u in EU. destruct r1 as [|a [|b r1]]; try discriminate. destruct (Byte.eqb a bslash && Byte.eqb b x75)%bool eqn:AB; [|discriminate].
        apply andb_prop in AB as [A1 A2]. apply byte_eqb_eq in A1, A2. subst a b. apply hex4_iff in EU as (k & G & ->).
        apply (P (65536 + (n - 55296) * 1024 + (m - 56320)) (x5c :: x75 :: h ++ x5c :: x75 :: k) (encode_rune (65536 + (n - 55296) * 1024 + (m - 56320))) r2).
        -- cbn [app]. now rewrite <- app_assoc.
        -- discriminate.
        -- left. now apply jpair.
        -- apply encode_char. unfold scalar. lia.
        -- exact E.
      * assert (S : scalar n).
        { pose proof (four_hex_lt n h F). unfold scalar. assert (~ 55296 <= n < 57344) by (rewrite <- surrogate_iff; congruence). lia. }
        apply (P n (x5c :: x75 :: h) (encode_rune n) r1); auto; [discriminate|left; now apply jhex|now apply encode_char].
    + destruct (simple_escape e) as [o|] eqn:SE; [|discriminate].
      apply (P (Byte.to_N o) [x5c; e] [o] r); auto; [discriminate| |].
      * left. apply jshort. clear - SE. unfold simple_escape in SE. unfold shorts. cbn [In].
        destruct (Byte.eqb e dquote) eqn:E1; [apply byte_eqb_eq in E1; subst e; injection SE as <-; left; reflexivity|].
        destruct (Byte.eqb e bslash) eqn:E2; [apply byte_eqb_eq in E2; subst e; injection SE as <-; right; left; reflexivity|].
        destruct (Byte.eqb e x2f) eqn:E3; [apply byte_eqb_eq in E3; subst e; injection SE as <-; do 2 right; left; reflexivity|]. cbn [orb] in SE.
        destruct (Byte.eqb e x62) eqn:E4; [apply byte_eqb_eq in E4; subst e; injection SE as <-; do 3 right; left; reflexivity|].
        destruct (Byte.eqb e x66) eqn:E5; [apply byte_eqb_eq in E5; subst e; injection SE as <-; do 4 right; left; reflexivity|].
        destruct (Byte.eqb e x6e) eqn:E6; [apply byte_eqb_eq in E6; subst e; injection SE as <-; do 5 right; left; reflexivity|].
        destruct (Byte.eqb e x72) eqn:E7; [apply byte_eqb_eq in E7; subst e; injection SE as <-; do 6 right; left; reflexivity|].
        destruct (Byte.eqb e x74) eqn:E8; [apply byte_eqb_eq in E8; subst e; injection SE as <-; do 7 right; left; reflexivity|discriminate].
      * apply ascii_char. clear - SE. unfold simple_escape in SE. destruct e; try discriminate SE; injection SE as <-; reflexivity.
  - destruct (Byte.eqb c dquote || (Byte.to_N c <? 32))%bool eqn:D; [discriminate|]. apply Bool.orb_false_iff in D as [D1 D2]. apply N.ltb_ge in D2.
    destruct (ascii c) eqn:A.
    + apply (P (Byte.to_N c) [c] [c] raw); auto; [discriminate| |now apply ascii_char]. left. apply jplain; [now apply ascii_char|exact D2| |].
      * intros X. change 34 with (Byte.to_N dquote) in X. apply byte_N_inj in X. subst c. discriminate.
      * intros X. change 92 with (Byte.to_N bslash) in X. apply byte_N_inj in X. subst c. discriminate.
    + unfold ascii in A. apply N.ltb_ge in A. destruct (wide_char (c :: raw)) as [[ch r]|] eqn:W.
      * destruct (wide_split _ _ _ W) as (Es & Wt & (a & b & ch' & Ech) & Na). destruct (wide_is_char ch) as [n C]; [exists []; apply Wt|].
        assert (Hn : 128 <= n).
        { destruct C; try lia. discriminate. }
        apply (P n ch ch r); auto; [congruence|left; apply jplain; auto; lia].
      * apply (P 65533 [c] replacement raw); auto; [discriminate|right; split; [reflexivity|now constructor]|exact replacement_char].
Qed.

(** ** Writing strings *)
Inductive written : N -> bytes -> Prop :=
| w_plain n bs : char n bs -> 32 <= n -> ~ In n [34; 92; 60; 62; 38; 8232; 8233] -> written n bs
| w_short e n : In (e, n) [(x22, 34); (x5c, 92); (x62, 8); (x66, 12); (x6e, 10); (x72, 13); (x74, 9)] -> written n [x5c; e]
| w_hex n h : n < 32 \/ In n [60; 62; 38; 8232; 8233] -> ~ In n [8; 9; 10; 12; 13] -> four_hex n h -> Forall (fun c => ~ 65 <= Byte.to_N c <= 70) h ->
    written n (x5c :: x75 :: h).
Lemma hex_of c v : hex_value c = Some v -> hexd v c.
Proof. apply hexd_iff. Qed.
Definition hex_ok (n : N) (h : bytes) : bool :=
  match hex4 h with Some (m, []) => (m =? n) && forallb (fun c => negb (within 65 70 c)) h | _ => false end%bool.
Lemma hex_ok_hex n h : hex_ok n h = true -> four_hex n h /\ Forall (fun c => ~ 65 <= Byte.to_N c <= 70) h.
Proof.
  unfold hex_ok. destruct (hex4 h) as [[m [|? ?]]|] eqn:H; try discriminate. intros E. apply andb_prop in E as [E F]. apply N.eqb_eq in E. subst m.
  apply hex4_iff in H as (h' & G & ->). rewrite app_nil_r in *. split; [exact G|].
  apply Forall_forall. intros c I. rewrite forallb_forall in F. specialize (F c I). apply Bool.negb_true_iff in F. intros B. apply within_iff in B. congruence.
Qed.
Definition write_ok (c : byte) : bool :=
  match esc_ascii c with
  | [d] => Byte.eqb c d && (32 <=? Byte.to_N c) && negb (existsb (N.eqb (Byte.to_N c)) [34; 92; 60; 62; 38; 8232; 8233])
  | [s; e] => Byte.eqb s x5c && existsb (fun p => Byte.eqb (fst p) e && (snd p =? Byte.to_N c)) [(x22, 34); (x5c, 92); (x62, 8); (x66, 12); (x6e, 10); (x72, 13); (x74, 9)]
  | s :: u :: h => Byte.eqb s x5c && Byte.eqb u x75 && ((Byte.to_N c <? 32) || existsb (N.eqb (Byte.to_N c)) [60; 62; 38; 8232; 8233]) &&
      negb (existsb (N.eqb (Byte.to_N c)) [8; 9; 10; 12; 13]) && hex_ok (Byte.to_N c) h
  | [] => false
  end%bool.
Lemma write_all c : ascii c = true -> write_ok c = true.
Proof. intros A. destruct c; try discriminate A; vm_compute; reflexivity. Qed.
Lemma existsb_N n l : existsb (N.eqb n) l = true <-> In n l.
Proof.
  rewrite existsb_exists. split; [intros (x & I & E); apply N.eqb_eq in E; now subst|]. intros I. exists n. split; [exact I|apply N.eqb_refl].
Qed.
Lemma existsb_not n l : negb (existsb (N.eqb n) l) = true -> ~ In n l.
Proof. rewrite Bool.negb_true_iff. intros E I. apply existsb_N in I. congruence. Qed.
Lemma write_ascii c : ascii c = true -> written (Byte.to_N c) (esc_ascii c).
Proof.
  intros A. pose proof (write_all c A) as W. unfold write_ok in W. destruct (esc_ascii c) as [|d [|e [|f h]]].
  - discriminate.
  - apply andb_prop in W as [W N]. apply andb_prop in W as [E L]. apply byte_eqb_eq in E. subst d. apply w_plain; [now apply ascii_char|now apply N.leb_le|now apply existsb_not].
  - apply andb_prop in W as [E W]. apply byte_eqb_eq in E. subst d. apply w_short. apply existsb_exists in W as ([e' n] & I & W). apply andb_prop in W as [W1 W2].
    cbn [fst snd] in *. apply byte_eqb_eq in W1. apply N.eqb_eq in W2. now subst.
  - apply andb_prop in W as [W H]. apply andb_prop in W as [W N]. apply andb_prop in W as [W O]. apply andb_prop in W as [E1 E2]. apply byte_eqb_eq in E1, E2. subst d e.
    apply hex_ok_hex in H as [H F]. apply w_hex; [|now apply existsb_not|exact H|exact F].
    apply Bool.orb_true_iff in O as [O|O]; [left; now apply N.ltb_lt|right; now apply existsb_N].
Qed.
Lemma sep_hex n h : hex_ok n h = true -> n = 8232 \/ n = 8233 -> written n (x5c :: x75 :: h).
Proof.
  intros H B. apply hex_ok_hex in H as [H F]. apply w_hex; auto; [right; cbn [In]; lia|]. cbn [In]. lia.
Qed.
Lemma char_same n m bs : char n bs -> char m bs -> n = m.
Proof. intros C D. now destruct (char_inj n m bs [] bs [] C D eq_refl). Qed.
Lemma write_char n bs : char n bs -> (exists a, bs = [a] /\ ascii a = true /\ written n (esc_ascii a)) \/
  (forall t, wide_char (bs ++ t) = Some (bs, t)) /\ written n (esc_piece (Wide bs)).
Proof.
  intros C. destruct (char_wide n bs C) as [(a & -> & A)|W].
  - left. exists a. repeat split; auto. rewrite (char_same _ _ _ C (ascii_char a A)). now apply write_ascii.
  - right. split; [exact W|]. cbn [esc_piece].
    destruct (beqb bs line_sep) eqn:E1.
    { apply beqb_eq in E1. subst bs. apply sep_hex; [|left]; rewrite (char_same n 8232 line_sep); auto; exact (encode_char 8232 ltac:(unfold scalar; lia)). }
    destruct (beqb bs para_sep) eqn:E2.
    { apply beqb_eq in E2. subst bs. apply sep_hex; [|right]; rewrite (char_same n 8233 para_sep); auto; exact (encode_char 8233 ltac:(unfold scalar; lia)). }
    pose proof (W []) as X. apply wide_split in X as (_ & _ & (a & b & ch & Eb) & _).
    assert (Hn : 128 <= n) by (destruct C; try lia; discriminate).
    apply w_plain; [exact C|lia|]. cbn [In]. intros I. assert (I' : n = 8232 \/ n = 8233) by lia.
    pose proof (char_encode _ _ C) as Ec. destruct I' as [->| ->].
    + change (encode_rune 8232) with line_sep in Ec. rewrite Ec in E1. vm_compute in E1. discriminate E1.
    + change (encode_rune 8233) with para_sep in Ec. rewrite Ec in E2. vm_compute in E2. discriminate E2.
Qed.
Lemma write_string l cs : Forall2 char l cs -> exists ws, Forall2 written l ws /\ escape (concat cs) = concat ws.
Proof.
  intros F. induction F as [|n bs l cs C F IH]; [exists []; split; constructor|]. destruct IH as (ws & G & E).
  destruct (write_char n bs C) as [(a & -> & A & W)|[W X]].
  - exists (esc_ascii a :: ws). split; [now constructor|]. cbn [concat app]. unfold escape. rewrite pieces_single by exact A. cbn [flat_map esc_piece].
    now rewrite <- E.
  - exists (esc_piece (Wide bs) :: ws). split; [now constructor|]. cbn [concat]. unfold escape. rewrite pieces_wide by (exists []; apply W). cbn [flat_map]. now rewrite <- E.
Qed.
Lemma bad_written s1 c s2 l cs : Forall2 char l cs -> s1 = concat cs -> ascii c = false -> wide_char (c :: s2) = None ->
  escape (s1 ++ c :: s2) = escape s1 ++ [x5c; x75; x66; x66; x66; x64] ++ escape s2.
Proof.
  intros F -> A W. induction F as [|n bs l cs C F IH].
  - cbn [concat app]. unfold escape. rewrite pieces_bad by auto. reflexivity.
  - cbn [concat]. rewrite <- app_assoc. destruct (write_char n bs C) as [(a & -> & Aa & _)|[Wb _]].
    + cbn [app]. unfold escape in *. rewrite !pieces_single by exact Aa. cbn [flat_map]. rewrite IH. now rewrite <- app_assoc.
    + unfold escape in *. rewrite (pieces_wide bs (concat cs ++ _)), (pieces_wide bs (concat cs)) by (exists []; apply Wb). cbn [flat_map]. rewrite IH. now rewrite <- app_assoc.
Qed.

(** ** Names of members *)
Definition upper (c : byte) : Prop := 65 <= Byte.to_N c <= 90.
Inductive alike : byte -> bytes -> Prop :=
| alike_same c : alike c [c]
| alike_upper c d : upper c -> Byte.to_N d = Byte.to_N c + 32 -> alike c [d]
| alike_lower c d : upper d -> Byte.to_N c = Byte.to_N d + 32 -> alike c [d]
| alike_s c : c = x53 \/ c = x73 -> alike c [xc5; xbf]
| alike_k c : c = x4b \/ c = x6b -> alike c [xe2; x84; xaa].
Definition up (c : byte) : byte := if within 97 122 c then byte_at (Byte.to_N c - 32) else c.
Lemma fold_cons c s : ascii c = true -> fold_name (c :: s) = up c :: fold_name s.
Proof.
  intros A. cbn [fold_name]. fold (up c). assert (N1 : Byte.eqb c xc5 = false) by (apply ascii_not; [reflexivity|exact A] || (destruct c; try discriminate A; reflexivity)).
  assert (N2 : Byte.eqb c xe2 = false) by (destruct c; try discriminate A; reflexivity). rewrite N1, N2. cbn [andb].
  destruct s as [|d [|e s]]; reflexivity.
Qed.
Lemma fold_ascii n : forallb ascii n = true -> fold_name n = map up n.
Proof. induction n as [|c n IH]; [reflexivity|]. cbn [forallb]. intros H. apply andb_prop in H as [A H]. rewrite fold_cons by exact A. cbn [map]. now rewrite IH. Qed.
Lemma up_eq c d : ascii c = true -> up d = up c <-> alike c [d].
Proof.
  intros A. split.
  - intros E. unfold up in E. destruct (within 97 122 d) eqn:D, (within 97 122 c) eqn:C.
    + apply within_iff in D, C. apply (f_equal Byte.to_N) in E. rewrite !byte_at_to in E by lia. replace d with c by (apply byte_N_inj; lia). constructor.
    + apply within_iff in D. subst c. apply alike_upper; unfold upper; rewrite byte_at_to by lia; lia.
    + apply within_iff in C. subst d. apply alike_lower; unfold upper; rewrite byte_at_to by lia; lia.
    + subst. constructor.
  - intros K. inversion K; subst; [reflexivity| |].
    + unfold up. replace (within 97 122 d) with true by (symmetry; apply within_iff; unfold upper in *; lia).
      replace (within 97 122 c) with false by (symmetry; apply Bool.not_true_is_false; rewrite within_iff; unfold upper in *; lia).
      apply byte_N_inj. rewrite byte_at_to; unfold upper in *; lia.
    + unfold up. replace (within 97 122 c) with true by (symmetry; apply within_iff; unfold upper in *; lia).
      replace (within 97 122 d) with false by (symmetry; apply Bool.not_true_is_false; rewrite within_iff; unfold upper in *; lia).
      apply byte_N_inj. rewrite byte_at_to; unfold upper in *; lia.
Qed.
Lemma up_ascii c : ascii c = true -> ascii (up c) = true.
Proof.
  intros A. unfold up. destruct (within 97 122 c) eqn:W; [|exact A]. apply within_iff in W. unfold ascii. apply N.ltb_lt. rewrite byte_at_to; lia.
Qed.
Lemma up_wide c : ascii c = false -> up c = c.
Proof.
  intros A. unfold up. replace (within 97 122 c) with false; [reflexivity|]. symmetry. apply Bool.not_true_is_false. rewrite within_iff. unfold ascii in A. apply N.ltb_ge in A. lia.
Qed.
Lemma fold_step c s : ascii c = false -> (exists s2, s = xbf :: s2 /\ c = xc5 /\ fold_name (c :: s) = x53 :: fold_name s2) \/
  (exists s3, s = x84 :: xaa :: s3 /\ c = xe2 /\ fold_name (c :: s) = x4b :: fold_name s3) \/ fold_name (c :: s) = c :: fold_name s.
Proof.
  intros A. pose proof (up_wide c A) as U. cbn [fold_name]. fold (up c). rewrite U. destruct s as [|d s]; [auto|].
  destruct (Byte.eqb c xc5 && Byte.eqb d xbf)%bool eqn:E1.
  { apply andb_prop in E1 as [X Y]. apply byte_eqb_eq in X, Y. subst. left. eauto. }
  destruct s as [|e s]; [auto|]. destruct (Byte.eqb c xe2 && Byte.eqb d x84 && Byte.eqb e xaa)%bool eqn:E2; [|auto].
  apply andb_prop in E2 as [E2 Z]. apply andb_prop in E2 as [X Y]. apply byte_eqb_eq in X, Y, Z. subst. right. left. eauto.
Qed.
Lemma names_iff n x : forallb ascii n = true -> (fold_name x = fold_name n <-> exists bs, Forall2 alike n bs /\ x = concat bs).
Proof.
  intros An. rewrite (fold_ascii n An). split.
  - remember (length x) as f eqn:Ef. assert (L : (length x <= f)%nat) by lia. clear Ef. revert x n An L. induction f as [|f IH]; intros x n An L E.
    { destruct x; [|cbn in L; lia]. destruct n; [|discriminate]. exists []. split; constructor. }
    destruct x as [|c s]; [destruct n; [|discriminate]; exists []; split; constructor|]. cbn [length] in L.
    destruct n as [|d n].
    { exfalso. destruct (ascii c) eqn:A; [rewrite fold_cons in E by exact A; discriminate|].
      destruct (fold_step c s A) as [(s2 & _ & _ & X)|[(s3 & _ & _ & X)|X]]; rewrite X in E; discriminate. }
    cbn [forallb] in An. apply andb_prop in An as [Ad An]. cbn [map] in E.
    destruct (ascii c) eqn:A.
    { rewrite fold_cons in E by exact A. injection E as E1 E2. destruct (IH s n An ltac:(lia) E2) as (bs & F & ->). exists ([c] :: bs). split; [|reflexivity].
      constructor; [now apply up_eq|exact F]. }
    destruct (fold_step c s A) as [(s2 & -> & -> & X)|[(s3 & -> & -> & X)|X]]; rewrite X in E; injection E as E1 E2.
    + cbn [length] in L. destruct (IH s2 n An ltac:(lia) E2) as (bs & F & ->). exists ([xc5; xbf] :: bs). split; [|reflexivity]. constructor; [|exact F]. apply alike_s.
      change x53 with (up x53) in E1. apply up_eq in E1; [|exact Ad]. clear - E1. inversion E1; subst; auto.
      * exfalso. unfold upper in *. cbn in *. lia.
      * right. apply byte_N_inj. cbn in *. lia.
    + cbn [length] in L. destruct (IH s3 n An ltac:(lia) E2) as (bs & F & ->). exists ([xe2; x84; xaa] :: bs). split; [|reflexivity]. constructor; [|exact F]. apply alike_k.
      change x4b with (up x4b) in E1. apply up_eq in E1; [|exact Ad]. clear - E1. inversion E1; subst; auto.
      * exfalso. unfold upper in *. cbn in *. lia.
      * right. apply byte_N_inj. cbn in *. lia.
    + exfalso. apply up_ascii in Ad. rewrite <- E1 in Ad. congruence.
  - intros (bs & F & ->). revert An. induction F as [|c b n bs K F IH]; intros An; [reflexivity|]. cbn [forallb] in An. apply andb_prop in An as [Ac An]. cbn [map concat].
    rewrite <- (IH An). clear IH F. inversion K; subst.
    + cbn [app]. now apply fold_cons.
    + cbn [app]. rewrite fold_cons; [f_equal; now apply up_eq|]. unfold ascii, upper in *. apply N.ltb_lt. lia.
    + cbn [app]. rewrite fold_cons; [f_equal; now apply up_eq|]. unfold ascii, upper in *. apply N.ltb_lt. lia.
    + destruct H as [-> | ->]; reflexivity.
    + destruct H as [-> | ->]; reflexivity.
Qed.
Lemma no_char_written s1 c s2 : valid_utf8 s1 -> (forall n bs r, c :: s2 = bs ++ r -> ~ char n bs) ->
  escape (s1 ++ c :: s2) = escape s1 ++ [x5c; x75; x66; x66; x66; x64] ++ escape s2.
Proof.
  intros V H. apply utf8_iff in V as (l & cs & F & ->). apply (bad_written _ _ _ l cs); auto.
  - destruct (ascii c) eqn:A; [|reflexivity]. exfalso. exact (H _ [c] s2 eq_refl (ascii_char c A)).
  - destruct (wide_char (c :: s2)) as [[ch r]|] eqn:W; [|reflexivity]. exfalso. destruct (wide_split _ _ _ W) as (E & Wt & _).
    destruct (wide_is_char ch) as [n C]; [exists []; apply Wt|]. exact (H n ch r E C).
Qed.
