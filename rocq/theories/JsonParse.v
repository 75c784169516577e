(** Proofs about JsonText: what the parser reads is a prefix of the text, whatever follows it, and the fuel suffices. *)
From Coq Require Import Strings.String.
From Verif Require Import Base BaseLemmas UtilModel UtilDuration JsonText JsonTextProofs.
Local Open Scope list_scope.

Lemma skip_split s : exists p, s = p ++ skip_space s /\ forallb json_space p = true.
Proof.
  induction s as [|c s [p [E F]]]; [exists []; split; reflexivity|]. cbn [skip_space]. destruct (json_space c) eqn:C; [|exists []; split; reflexivity].
  exists (c :: p). split; [cbn [app]; now rewrite <- E|]. cbn [forallb]. now rewrite C, F.
Qed.
Lemma skip_app p s : forallb json_space p = true -> skip_space (p ++ s) = skip_space s.
Proof. induction p as [|c p IH]; [reflexivity|]. cbn [forallb app skip_space]. intros H. apply andb_prop in H as [-> H]. auto. Qed.
Lemma skip_cons s c r : skip_space s = c :: r -> exists p, s = p ++ c :: r /\ forallb json_space p = true /\ json_space c = false.
Proof.
  intros E. destruct (skip_split s) as (p & P & F). rewrite E in P. exists p. repeat split; auto.
  assert (G : skip_space (c :: r) = c :: r) by (rewrite P in E at 1; rewrite skip_app in E by exact F; exact E).
  cbn [skip_space] in G. destruct (json_space c); [|reflexivity]. exfalso. destruct (skip_split r) as (q & Q & _). rewrite G in Q.
  apply (f_equal (@length byte)) in Q. rewrite app_length in Q. cbn [length] in Q. lia.
Qed.
Lemma skip_put p c r : forallb json_space p = true -> json_space c = false -> skip_space (p ++ c :: r) = c :: r.
Proof. intros F C. rewrite skip_app by exact F. cbn [skip_space]. now rewrite C. Qed.
(** No byte that would continue a number *)
Definition num_end (r : bytes) : Prop :=
  match r with [] => True | c :: _ => is_digit c = false /\ Byte.eqb c x2e = false /\ Byte.eqb c x65 = false /\ Byte.eqb c x45 = false end.
Lemma num_end_space p r : forallb json_space p = true -> num_end r -> num_end (p ++ r).
Proof.
  destruct p as [|c p]; [auto|]. cbn [forallb app num_end]. intros H _. apply andb_prop in H as [H _]. destruct c; try discriminate H; repeat split; reflexivity.
Qed.
Lemma value_num_end r : value_end r -> num_end r.
Proof. destruct r as [|c r]; [auto|]. intros [->|H]; [repeat split|]. destruct H as [->| ->]; repeat split. Qed.
(** A last byte that is not space *)
Definition ends (t : bytes) : Prop := json_space (last t x20) = false.
Lemma ends_app a b : ends b -> ends (a ++ b).
Proof.
  intros E. induction a as [|c a IH]; [exact E|]. unfold ends in *. cbn [app last]. destruct (a ++ b) eqn:X; [|exact IH].
  apply app_eq_nil in X as [_ ->]. discriminate E.
Qed.
Lemma ends_cons c b : ends b -> ends (c :: b).
Proof. apply (ends_app [c]). Qed.
Lemma ends_all p : p <> [] -> forallb (fun c => negb (json_space c)) p = true -> ends p.
Proof.
  induction p as [|c p IH]; [contradiction|]. intros _ F. cbn [forallb] in F. apply andb_prop in F as [F1 F]. destruct p as [|d p].
  - unfold ends. cbn. now apply Bool.negb_true_iff.
  - apply ends_cons, IH; [discriminate|exact F].
Qed.
Lemma scan_string_prefix s : forall k r, scan_string s = Some (k, r) -> exists t, s = t ++ r /\ ends t /\ forall r', scan_string (t ++ r') = Some (k, r').
Proof.
  assert (G : forall n s, length s < n -> forall k r, scan_string s = Some (k, r) ->
    exists t, s = t ++ r /\ ends t /\ forall r', scan_string (t ++ r') = Some (k, r')); [|apply (G (S (length s))); lia].
  clear s. induction n as [|n IH]; intros s L k r E; [lia|]. destruct s as [|c s]; [discriminate|]. cbn [scan_string] in E. cbn [length] in L.
  destruct (Byte.eqb c dquote) eqn:Q.
  { injection E as <- <-. apply byte_eqb_eq in Q as ->. exists [dquote]. repeat split. }
  destruct (Byte.eqb c bslash) eqn:B.
  { destruct s as [|e s]; [discriminate|]. destruct (Byte.eqb e x75) eqn:U.
    - destruct s as [|h1 [|h2 [|h3 [|h4 s]]]]; try discriminate. destruct (hex4 [h1; h2; h3; h4]) as [h|] eqn:H; [|discriminate].
      destruct (scan_string s) as [[raw rest]|] eqn:R; [|discriminate]. injection E as <- <-. cbn [length] in L.
      destruct (IH s ltac:(lia) _ _ R) as (t & -> & Y & P). exists (c :: e :: h1 :: h2 :: h3 :: h4 :: t). split; [reflexivity|]. split; [repeat apply ends_cons; exact Y|].
      intros r'. cbn [app scan_string]. now rewrite Q, B, U, H, P.
    - destruct (simple_escape e) as [x|] eqn:H; [|discriminate]. destruct (scan_string s) as [[raw rest]|] eqn:R; [|discriminate]. injection E as <- <-. cbn [length] in L.
      destruct (IH s ltac:(lia) _ _ R) as (t & -> & Y & P). exists (c :: e :: t). split; [reflexivity|]. split; [repeat apply ends_cons; exact Y|].
      intros r'. cbn [app scan_string]. now rewrite Q, B, U, H, P. }
  destruct (Byte.to_N c <? 32)%N eqn:C; [discriminate|]. destruct (scan_string s) as [[raw rest]|] eqn:R; [|discriminate]. injection E as <- <-.
  destruct (IH s ltac:(lia) _ _ R) as (t & -> & Y & P). exists (c :: t). split; [reflexivity|]. split; [repeat apply ends_cons; exact Y|].
  intros r'. cbn [app scan_string]. now rewrite Q, B, C, P.
Qed.
Lemma take_digits_split s : forall p r, take_digits s = (p, r) -> s = p ++ r /\ forallb is_digit p = true.
Proof.
  induction s as [|c s IH]; cbn [take_digits]; intros p r E; [injection E as <- <-; split; reflexivity|].
  destruct (is_digit c) eqn:D; [|injection E as <- <-; split; reflexivity]. destruct (take_digits s) as [p' r'] eqn:T. injection E as <- <-.
  destruct (IH _ _ eq_refl) as [-> F]. split; [reflexivity|]. cbn [forallb]. now rewrite D, F.
Qed.
(** The part of a number read by a scanner, put before anything that does not continue it *)
Definition stops (P : bytes -> Prop) (scan : bytes -> option (bytes * bytes)) : Prop :=
  forall s p r, scan s = Some (p, r) -> s = p ++ r /\ forall r', P r' -> scan (p ++ r') = Some (p, r').
Definition no_digit (r : bytes) : Prop := match r with [] => True | c :: _ => is_digit c = false end.
Definition no_point (r : bytes) : Prop := match r with [] => True | c :: _ => is_digit c = false /\ Byte.eqb c x2e = false end.
Lemma take_digits_put p r : forallb is_digit p = true -> no_digit r -> take_digits (p ++ r) = (p, r).
Proof. intros F N. apply take_digits_app; auto. Qed.
Lemma int_stops : stops no_digit scan_int.
Proof.
  intros [|c s] p r E; [discriminate|]. cbn [scan_int] in E. destruct (Byte.eqb c x30) eqn:Z.
  - injection E as <- <-. split; [reflexivity|]. intros r' _. cbn [app scan_int]. now rewrite Z.
  - destruct (is_digit c) eqn:D; [|discriminate]. destruct (take_digits s) as [q r0] eqn:T. injection E as <- <-.
    apply take_digits_split in T as [-> F]. split; [reflexivity|]. intros r' N. cbn [app scan_int]. now rewrite Z, D, take_digits_put.
Qed.
Lemma frac_stops : stops no_point scan_frac.
Proof.
  intros [|c s] p r E; cbn [scan_frac] in E.
  - injection E as <- <-. split; [reflexivity|]. intros [|c r'] N; [reflexivity|]. destruct N as [_ N]. cbn [app scan_frac]. now rewrite N.
  - destruct (Byte.eqb c x2e) eqn:Q.
    + destruct (take_digits s) as [[|d q] r0] eqn:T; [discriminate|]. injection E as <- <-. apply take_digits_split in T as [-> F].
      split; [reflexivity|]. intros r' N. change ((c :: d :: q) ++ r') with (c :: ((d :: q) ++ r')). cbn [scan_frac]. rewrite Q.
      rewrite take_digits_put; auto. destruct r'; [exact I|]. now destruct N.
    + injection E as <- <-. split; [reflexivity|]. intros [|c' r'] N; [reflexivity|]. destruct N as [_ N]. cbn [app scan_frac]. now rewrite N.
Qed.
Lemma exp_stops : stops num_end scan_exp.
Proof.
  assert (Z : forall r', num_end r' -> scan_exp r' = Some ([], r')).
  { intros [|c r'] N; [reflexivity|]. destruct N as (_ & _ & N1 & N2). cbn [scan_exp]. now rewrite N1, N2. }
  intros [|c s] p r E; cbn [scan_exp] in E.
  - injection E as <- <-. split; [reflexivity|]. exact Z.
  - destruct (Byte.eqb c x65 || Byte.eqb c x45) eqn:Q; [|injection E as <- <-; split; [reflexivity|exact Z]].
    set (sg := match s with g :: r => if Byte.eqb g x2b || Byte.eqb g x2d then ([g], r) else ([], s) | [] => ([], s) end) in E.
    destruct sg as [sign s2] eqn:SG. unfold sg in SG. clear sg. destruct (take_digits s2) as [[|d q] r0] eqn:T; [discriminate|]. injection E as <- <-.
    apply take_digits_split in T as [-> F]. assert (S : s = sign ++ (d :: q) ++ r0 /\ (sign = [] \/ exists g, sign = [g] /\ (Byte.eqb g x2b || Byte.eqb g x2d) = true)).
    { destruct s as [|g s]; [injection SG as <- E; discriminate E|]. destruct (Byte.eqb g x2b || Byte.eqb g x2d) eqn:G; [injection SG as <- SG|injection SG as <- SG SG2].
      - subst s. split; [reflexivity|]. right. eauto.
      - subst. split; [reflexivity|]. now left. }
    destruct S as [-> S]. split; [cbn [app]; rewrite <- ?app_assoc; reflexivity|]. intros r' N.
    assert (ND : no_digit r') by (destruct r'; [exact I|]; now destruct N).
    destruct S as [->|[g [-> G]]].
    + cbn [app scan_exp]. rewrite Q. assert (D : Byte.eqb d x2b || Byte.eqb d x2d = false).
      { cbn [forallb] in F. apply andb_prop in F as [F _]. destruct d; try discriminate F; reflexivity. }
      rewrite D. change (d :: q ++ r') with ((d :: q) ++ r'). rewrite take_digits_put by assumption. reflexivity.
    + cbn [app scan_exp]. rewrite Q, G. change (d :: q ++ r') with ((d :: q) ++ r'). rewrite take_digits_put by assumption. reflexivity.
Qed.
Definition no_spaces (p : bytes) : bool := forallb (fun c => negb (json_space c)) p.
Lemma digits_chars p : forallb is_digit p = true -> no_spaces p = true.
Proof.
  unfold no_spaces. induction p as [|c p IH]; [reflexivity|]. cbn [forallb]. intros H. apply andb_prop in H as [H1 H2]. rewrite IH by exact H2.
  destruct c; try discriminate H1; reflexivity.
Qed.
Lemma int_chars s p r : scan_int s = Some (p, r) -> no_spaces p = true.
Proof.
  destruct s as [|c s]; [discriminate|]. cbn [scan_int]. destruct (Byte.eqb c x30) eqn:Z; intros E.
  - injection E as <- _. apply byte_eqb_eq in Z as ->. reflexivity.
  - destruct (is_digit c) eqn:D; [|discriminate]. destruct (take_digits s) as [q r0] eqn:T. injection E as <- _.
    apply take_digits_split in T as [_ F]. apply digits_chars. cbn [forallb]. now rewrite D, F.
Qed.
Lemma frac_chars s p r : scan_frac s = Some (p, r) -> no_spaces p = true.
Proof.
  destruct s as [|c s]; cbn [scan_frac]; [intros [= <- _]; reflexivity|]. destruct (Byte.eqb c x2e) eqn:Z; intros E; [|injection E as <- _; reflexivity].
  destruct (take_digits s) as [[|d q] r0] eqn:T; [discriminate|]. injection E as <- _. apply take_digits_split in T as [_ F].
  apply byte_eqb_eq in Z as ->. exact (digits_chars _ F).
Qed.
Lemma exp_chars s p r : scan_exp s = Some (p, r) -> no_spaces p = true.
Proof.
  destruct s as [|c s]; cbn [scan_exp]; [intros [= <- _]; reflexivity|]. destruct (Byte.eqb c x65 || Byte.eqb c x45) eqn:Z; intros E; [|injection E as <- _; reflexivity].
  assert (N : no_spaces [c] = true) by (destruct c; try discriminate Z; reflexivity).
  assert (G : forall sign t d q r0, no_spaces sign = true -> take_digits t = (d :: q, r0) -> no_spaces (c :: sign ++ d :: q) = true).
  { intros sign t d q r0 H T. apply take_digits_split in T as [_ F]. change (no_spaces ([c] ++ sign ++ d :: q) = true). unfold no_spaces in *.
    rewrite !forallb_app, N, H. exact (digits_chars _ F). }
  destruct s as [|g s].
  - discriminate.
  - destruct (Byte.eqb g x2b || Byte.eqb g x2d) eqn:X.
    + destruct (take_digits s) as [[|d q] r0] eqn:T; [discriminate|]. injection E as <- _. apply (G [g] s d q r0); [|exact T]. destruct g; try discriminate X; reflexivity.
    + destruct (take_digits (g :: s)) as [[|d q] r0] eqn:T; [discriminate|]. injection E as <- _. now apply (G [] (g :: s) d q r0).
Qed.
Lemma number_prefix s p r : scan_number s = Some (p, r) -> s = p ++ r /\ p <> [] /\ ends p /\ forall r', num_end r' -> scan_number (p ++ r') = Some (p, r').
Proof.
  unfold scan_number. intros E.
  set (sg := match s with c :: s' => if Byte.eqb c x2d then ([c], s') else ([], s) | [] => ([], s) end) in E.
  destruct sg as [sign s1] eqn:SG. unfold sg in SG. clear sg.
  destruct (scan_int s1) as [[i s2]|] eqn:I1; [|discriminate]. destruct (scan_frac s2) as [[f s3]|] eqn:I2; [|discriminate].
  destruct (scan_exp s3) as [[e s4]|] eqn:I3; [|discriminate]. injection E as <- <-.
  assert (Ni : exists c i', i = c :: i' /\ is_digit c = true).
  { destruct s1 as [|c s1]; [discriminate|]. cbn [scan_int] in I1. destruct (Byte.eqb c x30) eqn:Z.
    - injection I1 as <- _. apply byte_eqb_eq in Z as ->. eauto.
    - destruct (is_digit c) eqn:D; [|discriminate]. destruct (take_digits s1). injection I1 as <- _. eauto. }
  assert (Hf : f = [] \/ exists f', f = x2e :: f').
  { destruct s2 as [|c s2]; cbn [scan_frac] in I2; [injection I2 as <- _; now left|]. destruct (Byte.eqb c x2e) eqn:Z.
    - destruct (take_digits s2) as [[|d q] r0]; [discriminate|]. injection I2 as <- _. apply byte_eqb_eq in Z as ->. right. eauto.
    - injection I2 as <- _. now left. }
  assert (He : e = [] \/ exists c e', e = c :: e' /\ (Byte.eqb c x65 || Byte.eqb c x45) = true).
  { destruct s3 as [|c s3]; cbn [scan_exp] in I3; [injection I3 as <- _; now left|]. destruct (Byte.eqb c x65 || Byte.eqb c x45) eqn:Z.
    - destruct (match s3 with g :: r => if Byte.eqb g x2b || Byte.eqb g x2d then ([g], r) else ([], s3) | [] => ([], s3) end) as [sg t].
      destruct (take_digits t) as [[|d q] r0]; [discriminate|]. injection I3 as <- _. right. eauto.
    - injection I3 as <- _. now left. }
  assert (F1 := int_chars _ _ _ I1). assert (F2 := frac_chars _ _ _ I2). assert (F3 := exp_chars _ _ _ I3).
  destruct (int_stops _ _ _ I1) as [-> P1]. destruct (frac_stops _ _ _ I2) as [-> P2]. destruct (exp_stops _ _ _ I3) as [-> P3].
  assert (S : s = sign ++ i ++ f ++ e ++ s4 /\ (sign = [] \/ exists g, sign = [g] /\ Byte.eqb g x2d = true)).
  { destruct s as [|g s]; [destruct Ni as (? & ? & -> & _); discriminate SG|]. destruct (Byte.eqb g x2d) eqn:G; injection SG as <- ->; split; eauto. }
  destruct S as [-> S]. destruct Ni as (c & i' & -> & D). split; [now rewrite <- !app_assoc|]. split; [destruct sign; discriminate|].
  split.
  { apply ends_all; [destruct sign; discriminate|]. unfold no_spaces in *. rewrite !forallb_app, F1, F2, F3, Bool.andb_true_r.
    destruct S as [->|[g [-> G]]]; [reflexivity|]. apply byte_eqb_eq in G as ->. reflexivity. }
  intros r' N.
  assert (N3 : no_point (e ++ r')).
  { destruct He as [->|(x & e' & -> & X)]; [destruct r'; [exact I|]; now destruct N as (A & B & _)|]. cbn. destruct x; try discriminate X; split; reflexivity. }
  assert (N2 : no_digit (f ++ e ++ r')).
  { destruct Hf as [->|(f' & ->)]; [|reflexivity]. cbn [app]. destruct (e ++ r'); [exact I|]. now destruct N3. }
  rewrite <- !app_assoc. destruct S as [->|[g [-> G]]].
  - cbn [app]. rewrite (digit_not_dash c D). change (c :: i' ++ f ++ e ++ r') with ((c :: i') ++ f ++ e ++ r'). rewrite (P1 _ N2), (P2 _ N3), (P3 _ N). reflexivity.
  - cbn [app]. rewrite G. change (c :: i' ++ f ++ e ++ r') with ((c :: i') ++ f ++ e ++ r'). rewrite (P1 _ N2), (P2 _ N3), (P3 _ N). reflexivity.
Qed.
Lemma word_prefix w : forall s r, strip_word w s = Some r -> s = w ++ r /\ forall r', strip_word w (w ++ r') = Some r'.
Proof.
  induction w as [|a w IH]; intros s r E; cbn [strip_word] in E; [injection E as <-; split; reflexivity|].
  destruct s as [|b s]; [discriminate|]. destruct (Byte.eqb a b) eqn:Q; [|discriminate]. apply byte_eqb_eq in Q as <-. destruct (IH _ _ E) as [-> P].
  split; [reflexivity|]. intros r'. cbn [app strip_word]. now rewrite byte_eqb_refl.
Qed.
(** A first byte that is not space *)
Definition starts (t : bytes) : Prop := exists c, forall r, exists s, skip_space (t ++ r) = c :: s.
Definition value_prefix f := forall s v r, parse_value f s = Some (v, r) ->
  exists t, s = t ++ r /\ starts t /\ ends t /\ forall r' g, num_end r' -> 2 * length t <= g -> parse_value g (t ++ r') = Some (v, r').
Definition elements_prefix f := forall s l r, parse_elements f s = Some (l, r) ->
  exists t, s = t ++ r /\ starts t /\ ends t /\ forall r' g, 2 * length t <= g -> parse_elements g (t ++ r') = Some (l, r').
Definition members_prefix f := forall s l r, parse_members f s = Some (l, r) ->
  exists t, s = t ++ r /\ starts t /\ ends t /\ forall r' g, 2 * length t <= g -> parse_members g (t ++ r') = Some (l, r').
Lemma starts_put p c t : forallb json_space p = true -> json_space c = false -> starts (p ++ c :: t).
Proof. intros P C. exists c. intros r. exists (t ++ r). rewrite <- app_assoc. cbn [app]. now apply skip_put. Qed.
Lemma starts_app t u : starts t -> starts (t ++ u).
Proof. intros [c H]. exists c. intros r. rewrite <- app_assoc. apply H. Qed.
Lemma starts_same t r c s : starts t -> skip_space (t ++ r) = c :: s -> forall r', exists s', skip_space (t ++ r') = c :: s'.
Proof. intros [d H] E r'. destruct (H r) as [s1 E1]. rewrite E in E1. injection E1 as <- _. apply H. Qed.
Lemma starts_length t : starts t -> 0 < length t.
Proof. intros [c H]. destruct t; [|cbn; lia]. destruct (H []) as [s E]. discriminate E. Qed.
Lemma comma_end p c r : forallb json_space p = true -> (c = x2c \/ c = x5d \/ c = x7d) -> num_end (p ++ c :: r).
Proof. intros P C. apply num_end_space; [exact P|]. now apply value_num_end. Qed.
Ltac lens := repeat (rewrite ?app_length in *; cbn [length app] in *).
Ltac assoc := repeat (rewrite <- ?app_assoc; cbn [app]).
Lemma ends_one c : json_space c = false -> ends [c].
Proof. auto. Qed.
Ltac finish := repeat first [assumption | apply ends_one; assumption | apply ends_cons | apply ends_app].
Lemma parse_prefix f : value_prefix f /\ elements_prefix f /\ members_prefix f.
Proof.
  induction f as [|f (IV & IE & IM)]; [repeat split; intros s v r E; discriminate E|]. repeat split.
  - intros s v r E. cbn [parse_value] in E. destruct (skip_space s) as [|c s1] eqn:SK; [discriminate|].
    apply skip_cons in SK as (p & -> & P & C). destruct (Byte.eqb c x7b) eqn:B1.
    { destruct (skip_space s1) as [|c2 s2] eqn:S2; [discriminate|]. destruct (Byte.eqb c2 x7d) eqn:B2.
      - injection E as <- <-. apply skip_cons in S2 as (q & -> & Q & C2). exists (p ++ c :: q ++ [c2]).
        split; [now assoc|]. split; [now apply starts_put|]. split; [finish|]. intros r' g _ L. assoc. lens. destruct g as [|g]; [lia|].
        cbn [parse_value]. rewrite skip_put by assumption. rewrite B1, skip_put by assumption. now rewrite B2.
      - destruct (parse_members f s1) as [[l r3]|] eqn:M; [|discriminate]. injection E as <- <-. destruct (IM _ _ _ M) as (t & -> & N & Y & G).
        exists (p ++ c :: t). split; [now assoc|]. split; [now apply starts_put|]. split; [finish|]. intros r' g _ L. assoc. lens.
        destruct g as [|g]; [lia|]. cbn [parse_value]. rewrite skip_put by assumption. rewrite B1.
        destruct (starts_same _ _ _ _ N S2 r') as [s' ->]. rewrite B2, G by lia. reflexivity. }
    destruct (Byte.eqb c x5b) eqn:B3.
    { destruct (skip_space s1) as [|c2 s2] eqn:S2; [discriminate|]. destruct (Byte.eqb c2 x5d) eqn:B2.
      - injection E as <- <-. apply skip_cons in S2 as (q & -> & Q & C2). exists (p ++ c :: q ++ [c2]).
        split; [now assoc|]. split; [now apply starts_put|]. split; [finish|]. intros r' g _ L. assoc. lens. destruct g as [|g]; [lia|].
        cbn [parse_value]. rewrite skip_put by assumption. rewrite B1, B3, skip_put by assumption. now rewrite B2.
      - destruct (parse_elements f s1) as [[l r3]|] eqn:M; [|discriminate]. injection E as <- <-. destruct (IE _ _ _ M) as (t & -> & N & Y & G).
        exists (p ++ c :: t). split; [now assoc|]. split; [now apply starts_put|]. split; [finish|]. intros r' g _ L. assoc. lens.
        destruct g as [|g]; [lia|]. cbn [parse_value]. rewrite skip_put by assumption. rewrite B1, B3.
        destruct (starts_same _ _ _ _ N S2 r') as [s' ->]. rewrite B2, G by lia. reflexivity. }
    destruct (Byte.eqb c dquote) eqn:B4.
    { destruct (scan_string s1) as [[raw r2]|] eqn:S; [|discriminate]. injection E as <- <-. destruct (scan_string_prefix _ _ _ S) as (t & -> & Y & G).
      exists (p ++ c :: t). split; [now assoc|]. split; [now apply starts_put|]. split; [finish|]. intros r' g _ L. assoc. lens.
      destruct g as [|g]; [lia|]. cbn [parse_value]. rewrite skip_put by assumption. now rewrite B1, B3, B4, G. }
    assert (W : forall (w : bytes) x, ends (c :: w) -> with_word (c :: w) x (c :: s1) = Some (v, r) ->
                (forall r', parse_value 1 (c :: w ++ r') = with_word (c :: w) x (c :: w ++ r')) ->
                exists t, p ++ c :: s1 = t ++ r /\ starts t /\ ends t /\ forall r' g, num_end r' -> 2 * length t <= g -> parse_value g (t ++ r') = Some (v, r')).
    { intros w x Ew E1 E2. unfold with_word in *. destruct (strip_word (c :: w) (c :: s1)) as [r2|] eqn:S; [|discriminate]. injection E1 as <- <-.
      destruct (word_prefix _ _ _ S) as [-> G]. exists (p ++ c :: w). split; [now assoc|]. split; [now apply starts_put|]. split; [finish|]. intros r' g _ L. assoc. lens.
      destruct g as [|g]; [lia|]. specialize (E2 r'). specialize (G r'). cbn [app] in G. rewrite G in E2.
      cbn [parse_value] in E2 |- *. cbn [skip_space] in E2. rewrite C in E2. rewrite skip_put by assumption. rewrite B1, B3, B4 in *. exact E2. }
    destruct (Byte.eqb c x74) eqn:B5; [apply byte_eqb_eq in B5 as ->; apply (W (tl w_true) _ eq_refl E); intros; reflexivity|].
    destruct (Byte.eqb c x66) eqn:B6; [apply byte_eqb_eq in B6 as ->; apply (W (tl w_false) _ eq_refl E); intros; reflexivity|].
    destruct (Byte.eqb c x6e) eqn:B7; [apply byte_eqb_eq in B7 as ->; apply (W (tl w_null) _ eq_refl E); intros; reflexivity|].
    destruct (scan_number (c :: s1)) as [[t r2]|] eqn:S; [|discriminate]. injection E as <- <-. destruct (number_prefix _ _ _ S) as (E & N & Y & G).
    destruct t as [|c' t]; [contradiction|]. injection E as <- ->. exists (p ++ c :: t). split; [now assoc|]. split; [now apply starts_put|]. split; [finish|].
    intros r' g R L. assoc. lens. destruct g as [|g]; [lia|]. cbn [parse_value]. rewrite skip_put by assumption. rewrite B1, B3, B4, B5, B6, B7.
    specialize (G r' R). cbn [app] in G. now rewrite G.
  - intros s l r E. cbn [parse_elements] in E. destruct (parse_value f s) as [[v r1]|] eqn:V; [|discriminate].
    destruct (IV _ _ _ V) as (t & -> & N & Y & G). destruct (skip_space r1) as [|c r2] eqn:SK; [discriminate|].
    apply skip_cons in SK as (q & -> & Q & C). pose proof (starts_length t N) as Lt. destruct (Byte.eqb c x2c) eqn:B1.
    + destruct (parse_elements f r2) as [[l' r3]|] eqn:M; [|discriminate]. injection E as <- <-. destruct (IE _ _ _ M) as (u & -> & N2 & Y2 & G2).
      exists (t ++ q ++ c :: u). split; [now assoc|]. split; [now apply starts_app|]. split; [finish|]. intros r' g L. assoc. lens. destruct g as [|g]; [lia|].
      cbn [parse_elements]. apply byte_eqb_eq in B1 as B1'. rewrite G by (try lia; apply comma_end; auto). rewrite skip_put by assumption. rewrite B1, G2 by lia. reflexivity.
    + destruct (Byte.eqb c x5d) eqn:B2; [|discriminate]. injection E as <- <-. exists (t ++ q ++ [c]).
      split; [now assoc|]. split; [now apply starts_app|]. split; [finish|]. intros r' g L. assoc. lens. destruct g as [|g]; [lia|].
      cbn [parse_elements]. apply byte_eqb_eq in B2 as B2'. rewrite G by (try lia; apply comma_end; auto). rewrite skip_put by assumption. now rewrite B1, B2.
  - intros s l r E. cbn [parse_members] in E. destruct (skip_space s) as [|c s1] eqn:SK; [discriminate|].
    apply skip_cons in SK as (p & -> & P & C). destruct (Byte.eqb c dquote) eqn:B0; [|discriminate].
    destruct (scan_string s1) as [[k s2]|] eqn:S; [|discriminate]. destruct (scan_string_prefix _ _ _ S) as (kt & -> & _ & GK).
    destruct (skip_space s2) as [|c2 s3] eqn:SK; [discriminate|]. apply skip_cons in SK as (q & -> & Q & C2).
    destruct (Byte.eqb c2 x3a) eqn:B1; [|discriminate]. destruct (parse_value f s3) as [[v r1]|] eqn:V; [|discriminate].
    destruct (IV _ _ _ V) as (t & -> & N & Y & G). destruct (skip_space r1) as [|c3 r2] eqn:SK; [discriminate|]. pose proof (starts_length t N) as Lt.
    apply skip_cons in SK as (q2 & -> & Q2 & C3). destruct (Byte.eqb c3 x2c) eqn:B2.
    + destruct (parse_members f r2) as [[l' r3]|] eqn:M; [|discriminate]. injection E as <- <-. destruct (IM _ _ _ M) as (u & -> & N2 & Y2 & G2).
      exists (p ++ c :: kt ++ q ++ c2 :: t ++ q2 ++ c3 :: u). split; [now assoc|]. split; [now apply starts_put|]. split; [finish|]. intros r' g L. assoc. lens. destruct g as [|g]; [lia|].
      cbn [parse_members]. rewrite skip_put by assumption. rewrite B0, GK, skip_put by assumption. rewrite B1. apply byte_eqb_eq in B2 as B2'.
      rewrite G by (try lia; apply comma_end; auto). rewrite skip_put by assumption. rewrite B2, G2 by lia. reflexivity.
    + destruct (Byte.eqb c3 x7d) eqn:B3; [|discriminate]. injection E as <- <-. exists (p ++ c :: kt ++ q ++ c2 :: t ++ q2 ++ [c3]).
      split; [now assoc|]. split; [now apply starts_put|]. split; [finish|]. intros r' g L. assoc. lens. destruct g as [|g]; [lia|].
      cbn [parse_members]. rewrite skip_put by assumption. rewrite B0, GK, skip_put by assumption. rewrite B1. apply byte_eqb_eq in B3 as B3'.
      rewrite G by (try lia; apply comma_end; auto). rewrite skip_put by assumption. now rewrite B2, B3.
Qed.
