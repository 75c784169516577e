(** The grammar of JSON as in RFC 8259, and that the parser of JsonText reads exactly its texts. The bytes of strings need not be UTF-8. *)
From Coq Require Import Strings.String.
From Verif Require Import Base BaseLemmas UtilModel UtilDuration DbModel LoadModel LoadProofs PolicyModel JsonText JsonTextProofs JsonParse JsonModel JsonProofs JsonRead JsonEvery.
Local Open Scope list_scope.
Local Notation b_ s := (list_byte_of_string s%string).

Definition blank (s : bytes) : Prop := Forall (fun c => In c [x20; x09; x0a; x0d]) s.
Definition digits (s : bytes) : Prop := Forall (fun c => In c (b_ "0123456789")) s.
(** [minus] int [frac] [exp] *)
Definition int_part (s : bytes) : Prop := s = b_ "0" \/ exists d ds, s = d :: ds /\ In d (b_ "123456789") /\ digits ds.
Definition frac_part (s : bytes) : Prop := s = [] \/ exists ds, s = b_ "." ++ ds /\ ds <> [] /\ digits ds.
Definition exp_part (s : bytes) : Prop :=
  s = [] \/ exists e sign ds, s = e :: sign ++ ds /\ In e (b_ "eE") /\ In sign [[]; b_ "+"; b_ "-"] /\ ds <> [] /\ digits ds.
Definition number (s : bytes) : Prop :=
  exists sign i f e, s = sign ++ i ++ f ++ e /\ In sign [[]; b_ "-"] /\ int_part i /\ frac_part f /\ exp_part e.
(** The characters between the quotes of a string *)
Inductive chars : bytes -> Prop :=
| chars_nil : chars []
| chars_plain c s : (32 <= Byte.to_N c)%N -> c <> x22 -> c <> x5c -> chars s -> chars (c :: s)
| chars_escape e s : In e [x22; x5c; x2f; x62; x66; x6e; x72; x74] -> chars s -> chars (x5c :: e :: s)
| chars_hex a b c d s : Forall (fun h => In h (b_ "0123456789abcdefABCDEF")) [a; b; c; d] -> chars s -> chars (x5c :: x75 :: a :: b :: c :: d :: s).
Inductive is_value : bytes -> json -> Prop :=
| v_null : is_value (b_ "null") JNull
| v_true : is_value (b_ "true") (JBool true)
| v_false : is_value (b_ "false") (JBool false)
| v_num s : number s -> is_value s (JNum s)
| v_str s : chars s -> is_value (x22 :: s ++ [x22]) (JStr s)
| v_no_elements p : blank p -> is_value (b_ "[" ++ p ++ b_ "]") (JArr [])
| v_array t l : elements t l -> is_value (b_ "[" ++ t ++ b_ "]") (JArr l)
| v_no_members p : blank p -> is_value (b_ "{" ++ p ++ b_ "}") (JObj [])
| v_object t l : members t l -> is_value (b_ "{" ++ t ++ b_ "}") (JObj l)
with elements : bytes -> list json -> Prop :=
| e_one p t q v : blank p -> is_value t v -> blank q -> elements (p ++ t ++ q) [v]
| e_more p t q v t' l : blank p -> is_value t v -> blank q -> elements t' l -> elements (p ++ t ++ q ++ b_ "," ++ t') (v :: l)
with members : bytes -> list (bytes * json) -> Prop :=
| m_one p k q p2 t q2 v : blank p -> chars k -> blank q -> blank p2 -> is_value t v -> blank q2 ->
    members (p ++ x22 :: k ++ x22 :: q ++ b_ ":" ++ p2 ++ t ++ q2) [(k, v)]
| m_more p k q p2 t q2 v t' l : blank p -> chars k -> blank q -> blank p2 -> is_value t v -> blank q2 -> members t' l ->
    members (p ++ x22 :: k ++ x22 :: q ++ b_ ":" ++ p2 ++ t ++ q2 ++ b_ "," ++ t') ((k, v) :: l).
Definition is_text (s : bytes) (v : json) : Prop := exists p t q, s = p ++ t ++ q /\ blank p /\ is_value t v /\ blank q.
Scheme is_value_mut := Induction for is_value Sort Prop with elements_mut := Induction for elements Sort Prop with members_mut := Induction for members Sort Prop.
Combined Scheme grammar_mut from is_value_mut, elements_mut, members_mut.

(** ** Characters *)
Lemma in_iff c l : existsb (Byte.eqb c) l = true <-> In c l.
Proof. rewrite existsb_exists. split; [intros (d & I & E); apply byte_eqb_eq in E as ->; exact I|]. intros I. exists c. split; [exact I|]. apply byte_eqb_refl. Qed.
Lemma space_iff c : json_space c = true <-> In c [x20; x09; x0a; x0d].
Proof. rewrite <- in_iff. destruct c; split; trivial. Qed.
Lemma blank_iff s : forallb json_space s = true <-> blank s.
Proof. unfold blank. rewrite forallb_forall, Forall_forall. split; intros H c I; apply space_iff, H, I. Qed.
Lemma digit_iff c : is_digit c = true <-> In c (b_ "0123456789").
Proof. rewrite <- in_iff. destruct c; split; trivial. Qed.
Lemma digits_iff s : forallb is_digit s = true <-> digits s.
Proof. unfold digits. rewrite forallb_forall, Forall_forall. split; intros H c I; apply digit_iff, H, I. Qed.
Lemma hex_iff c : hex_value c <> None <-> In c (b_ "0123456789abcdefABCDEF").
Proof. rewrite <- in_iff. destruct c; split; intros H; try reflexivity; try discriminate; exfalso; apply H; reflexivity. Qed.
Lemma hex4_iff a b c d : hex4 [a; b; c; d] <> None <-> Forall (fun h => In h (b_ "0123456789abcdefABCDEF")) [a; b; c; d].
Proof.
  unfold hex4. split.
  - intros H. repeat apply Forall_cons; try apply Forall_nil; apply hex_iff; intros E; rewrite E in H; repeat (destruct (hex_value _) in H); congruence.
  - intros H. rewrite Forall_forall in H.
    assert (hex_value a <> None) by (apply hex_iff, H; cbn; auto). assert (hex_value b <> None) by (apply hex_iff, H; cbn; auto).
    assert (hex_value c <> None) by (apply hex_iff, H; cbn; auto). assert (hex_value d <> None) by (apply hex_iff, H; cbn; auto). destruct (hex_value a), (hex_value b), (hex_value c), (hex_value d); congruence.
Qed.
Lemma simple_iff e : simple_escape e <> None <-> In e [x22; x5c; x2f; x62; x66; x6e; x72; x74].
Proof. rewrite <- in_iff. destruct e; split; intros H; try reflexivity; try discriminate; exfalso; apply H; reflexivity. Qed.
Lemma eqb_ne a b : a <> b -> Byte.eqb a b = false.
Proof. intros N. destruct (Byte.eqb a b) eqn:E; [|reflexivity]. apply byte_eqb_eq in E. contradiction. Qed.
Lemma ne_eqb a b : Byte.eqb a b = false -> a <> b.
Proof. intros E ->. rewrite byte_eqb_refl in E. discriminate. Qed.

(** ** Strings *)
Lemma scan_chars raw : chars raw -> forall r, scan_string (raw ++ x22 :: r) = Some (raw, r).
Proof.
  induction 1 as [|c s L N1 N2 _ IH|e s E _ IH|a b c d s F _ IH]; intros r.
  - reflexivity.
  - cbn [app scan_string]. rewrite (eqb_ne c dquote N1), (eqb_ne c bslash N2). replace (Byte.to_N c <? 32)%N with false by (symmetry; apply N.ltb_ge, L). now rewrite IH.
  - cbn [app scan_string]. change (Byte.eqb x5c dquote) with false. change (Byte.eqb x5c bslash) with true. cbn match.
    assert (U : Byte.eqb e x75 = false) by (apply in_iff in E; destruct e; try reflexivity; discriminate E). rewrite U.
    apply simple_iff in E. destruct (simple_escape e); [|contradiction]. now rewrite IH.
  - cbn [app scan_string]. change (Byte.eqb x5c dquote) with false. change (Byte.eqb x5c bslash) with true. change (Byte.eqb x75 x75) with true. cbn match.
    apply hex4_iff in F. destruct (hex4 [a; b; c; d]); [|contradiction]. now rewrite IH.
Qed.
Lemma scanned_chars : forall n s k r, length s < n -> scan_string s = Some (k, r) -> s = k ++ x22 :: r /\ chars k.
Proof.
  induction n as [|n IH]; intros s k r L E; [lia|]. destruct s as [|c s]; [discriminate|]. cbn [scan_string length] in *.
  destruct (Byte.eqb c dquote) eqn:Q. { apply byte_eqb_eq in Q as ->. injection E as <- <-. split; [reflexivity|constructor]. }
  destruct (Byte.eqb c bslash) eqn:B.
  - apply byte_eqb_eq in B as ->. destruct s as [|e s]; [discriminate|]. destruct (Byte.eqb e x75) eqn:U.
    + apply byte_eqb_eq in U as ->. destruct s as [|h1 [|h2 [|h3 [|h4 s]]]]; try discriminate. destruct (hex4 [h1; h2; h3; h4]) as [h|] eqn:H; [|discriminate].
      destruct (scan_string s) as [[raw rest]|] eqn:R; [|discriminate]. injection E as <- <-. cbn [length] in L. destruct (IH s raw rest ltac:(lia) R) as [-> C].
      split; [reflexivity|]. apply chars_hex; [apply hex4_iff; congruence|exact C].
    + destruct (simple_escape e) as [x|] eqn:H; [|discriminate]. destruct (scan_string s) as [[raw rest]|] eqn:R; [|discriminate]. injection E as <- <-. cbn [length] in L.
      destruct (IH s raw rest ltac:(lia) R) as [-> C]. split; [reflexivity|]. apply chars_escape; [apply simple_iff; congruence|exact C].
  - destruct (Byte.to_N c <? 32)%N eqn:C; [discriminate|]. destruct (scan_string s) as [[raw rest]|] eqn:R; [|discriminate]. injection E as <- <-.
    destruct (IH s raw rest ltac:(lia) R) as [-> D]. split; [reflexivity|]. apply chars_plain; [apply N.ltb_ge, C|exact (ne_eqb _ _ Q)|exact (ne_eqb _ _ B)|exact D].
Qed.

(** ** Numbers *)
Lemma scanned_int s p r : scan_int s = Some (p, r) -> s = p ++ r /\ int_part p.
Proof.
  intros E. split; [apply (int_stops _ _ _ E)|]. destruct s as [|c s]; [discriminate|]. cbn [scan_int] in E. destruct (Byte.eqb c x30) eqn:Z.
  - injection E as <- <-. apply byte_eqb_eq in Z as ->. left. reflexivity.
  - destruct (is_digit c) eqn:D; [|discriminate]. destruct (take_digits s) as [q r0] eqn:T. injection E as <- <-. apply take_digits_split in T as [_ F].
    right. exists c, q. split; [reflexivity|]. split; [|apply digits_iff, F]. destruct c; try discriminate D; try discriminate Z; cbn; tauto.
Qed.
Lemma scanned_frac s p r : scan_frac s = Some (p, r) -> s = p ++ r /\ frac_part p.
Proof.
  intros E. split; [apply (frac_stops _ _ _ E)|]. destruct s as [|c s]; cbn [scan_frac] in E; [injection E as <- <-; left; reflexivity|].
  destruct (Byte.eqb c x2e) eqn:Q; [|injection E as <- <-; left; reflexivity]. apply byte_eqb_eq in Q as ->.
  destruct (take_digits s) as [[|d q] r0] eqn:T; [discriminate|]. injection E as <- <-. apply take_digits_split in T as [_ F].
  right. exists (d :: q). split; [reflexivity|]. split; [discriminate|apply digits_iff, F].
Qed.
Lemma scanned_exp s p r : scan_exp s = Some (p, r) -> s = p ++ r /\ exp_part p.
Proof.
  intros E. split; [apply (exp_stops _ _ _ E)|]. destruct s as [|c s]; cbn [scan_exp] in E; [injection E as <- <-; left; reflexivity|].
  destruct (Byte.eqb c x65 || Byte.eqb c x45) eqn:Q; [|injection E as <- <-; left; reflexivity].
  assert (Qe : In c (b_ "eE")) by (destruct c; try discriminate Q; cbn; tauto).
  set (sg := match s with g :: r => if Byte.eqb g x2b || Byte.eqb g x2d then ([g], r) else ([], s) | [] => ([], s) end) in E.
  assert (S : In (fst sg) [[]; b_ "+"; b_ "-"]).
  { unfold sg. destruct s as [|g s]; [left; reflexivity|]. destruct (Byte.eqb g x2b || Byte.eqb g x2d) eqn:G; [|left; reflexivity].
    destruct g; try discriminate G; cbn; tauto. }
  destruct sg as [sign s2]. cbn [fst] in S. destruct (take_digits s2) as [[|d q] r0] eqn:T; [discriminate|]. injection E as <- <-. apply take_digits_split in T as [_ F].
  right. exists c, sign, (d :: q). split; [reflexivity|]. split; [exact Qe|]. split; [exact S|]. split; [discriminate|apply digits_iff, F].
Qed.
Lemma scanned_number s p r : scan_number s = Some (p, r) -> s = p ++ r /\ number p.
Proof.
  unfold scan_number. set (sg := match s with c :: s' => if Byte.eqb c x2d then ([c], s') else ([], s) | [] => ([], s) end).
  assert (S : s = fst sg ++ snd sg /\ In (fst sg) [[]; b_ "-"]).
  { unfold sg. destruct s as [|c s]; [cbn; auto|]. destruct (Byte.eqb c x2d) eqn:Q; [|cbn; auto]. apply byte_eqb_eq in Q as ->. cbn. auto. }
  destruct sg as [sign s1]. cbn [fst snd] in S. destruct S as [-> S]. destruct (scan_int s1) as [[i s2]|] eqn:I; [|discriminate].
  destruct (scan_frac s2) as [[f s3]|] eqn:F; [|discriminate]. destruct (scan_exp s3) as [[e s4]|] eqn:E; [|discriminate]. intros [= <- <-].
  apply scanned_int in I as [-> I]. apply scanned_frac in F as [-> F]. apply scanned_exp in E as [-> E].
  split; [rewrite <- !app_assoc; reflexivity|]. exists sign, i, f, e. auto.
Qed.
Lemma digits_head ds : ds <> [] -> digits ds -> exists d q, ds = d :: q /\ is_digit d = true /\ forallb is_digit q = true.
Proof. intros N D. destruct ds as [|d q]; [contradiction|]. inversion D; subst. exists d, q. split; [reflexivity|]. split; [now apply digit_iff|now apply digits_iff]. Qed.
Lemma scan_the_exp e r : exp_part e -> num_end r -> scan_exp (e ++ r) = Some (e, r).
Proof.
  intros [->|(c & sign & ds & -> & C & S & N & D)] R.
  - destruct r as [|c r]; [reflexivity|]. destruct R as (_ & _ & R1 & R2). cbn [app scan_exp]. now rewrite R1, R2.
  - apply digits_iff in D as Dd. cbn [app scan_exp]. rewrite <- app_assoc. assert (Q : Byte.eqb c x65 || Byte.eqb c x45 = true) by (destruct C as [<-|[<-|[]]]; reflexivity). rewrite Q.
    destruct (digits_head ds N D) as (d & q & -> & D1 & D2). assert (Rd : no_digit r) by (destruct r; [exact I|apply R]).
    destruct S as [<-|[<-|[<-|[]]]].
    + cbn [app]. assert (G : Byte.eqb d x2b || Byte.eqb d x2d = false) by (destruct d; try discriminate D1; reflexivity). rewrite G.
      change (d :: q ++ r) with ((d :: q) ++ r). rewrite (take_digits_put _ _ Dd Rd). reflexivity.
    + change (b_ "+" ++ (d :: q) ++ r) with (x2b :: (d :: q) ++ r). cbn match. change (Byte.eqb x2b x2b || Byte.eqb x2b x2d) with true. cbn match.
      rewrite (take_digits_put _ _ Dd Rd). reflexivity.
    + change (b_ "-" ++ (d :: q) ++ r) with (x2d :: (d :: q) ++ r). cbn match. change (Byte.eqb x2d x2b || Byte.eqb x2d x2d) with true. cbn match.
      rewrite (take_digits_put _ _ Dd Rd). reflexivity.
Qed.
Lemma exp_no_point e r : exp_part e -> num_end r -> no_point (e ++ r).
Proof.
  intros [->|(c & sign & ds & -> & C & _)] R; [destruct r; [exact I|]; split; apply R|]. destruct C as [<-|[<-|[]]]; split; reflexivity.
Qed.
Lemma scan_the_frac f r : frac_part f -> no_point r -> scan_frac (f ++ r) = Some (f, r).
Proof.
  intros [->|(ds & -> & N & D)] R.
  - destruct r as [|c r]; [reflexivity|]. destruct R as [_ R]. cbn [app scan_frac]. now rewrite R.
  - apply digits_iff in D as Dd. change ((b_ "." ++ ds) ++ r) with (x2e :: ds ++ r). cbn [scan_frac]. change (Byte.eqb x2e x2e) with true. cbn match.
    rewrite (take_digits_put _ _ Dd); [|destruct r; [exact I|apply R]]. destruct ds; [contradiction|reflexivity].
Qed.
Lemma frac_no_digit f r : frac_part f -> no_point r -> no_digit (f ++ r).
Proof. intros [->|(ds & -> & _)] R; [destruct r; [exact I|apply R]|reflexivity]. Qed.
Lemma scan_the_int i r : int_part i -> no_digit r -> scan_int (i ++ r) = Some (i, r).
Proof.
  intros [->|(d & ds & -> & D1 & D2)] R; [reflexivity|]. apply digits_iff in D2. cbn [app scan_int]. rewrite (take_digits_put _ _ D2 R).
  assert (Byte.eqb d x30 = false /\ is_digit d = true) as [-> ->]; [|reflexivity]. cbn in D1. repeat (destruct D1 as [<-|D1]; [split; reflexivity|]). destruct D1.
Qed.
Lemma scan_the_number s r : number s -> num_end r -> scan_number (s ++ r) = Some (s, r).
Proof.
  intros (sign & i & f & e & -> & S & I & F & E) R. pose proof (scan_the_exp e r E R) as Se. pose proof (scan_the_frac f (e ++ r) F (exp_no_point e r E R)) as Sf.
  pose proof (scan_the_int i (f ++ e ++ r) I (frac_no_digit _ _ F (exp_no_point e r E R))) as Si. rewrite <- !app_assoc. unfold scan_number.
  destruct S as [<-|[<-|[]]].
  - cbn [app]. assert (N : exists c t, i ++ f ++ e ++ r = c :: t /\ Byte.eqb c x2d = false).
    { destruct I as [->|(d & ds & -> & D1 & _)]; [eexists _, _; split; reflexivity|]. eexists d, _. split; [reflexivity|]. cbn in D1.
      repeat (destruct D1 as [<-|D1]; [reflexivity|]). destruct D1. }
    destruct N as (c & t & N & C). rewrite N at 1. rewrite C, N, <- N, Si, Sf, Se. reflexivity.
  - change (b_ "-" ++ i ++ f ++ e ++ r) with (x2d :: i ++ f ++ e ++ r). cbn match. change (Byte.eqb x2d x2d) with true. cbn match. rewrite Si, Sf, Se. reflexivity.
Qed.

(** ** What is read is in the grammar *)
Lemma word_split w s r : strip_word w s = Some r -> s = w ++ r.
Proof.
  revert s. induction w as [|a w IH]; intros s E; [injection E as ->; reflexivity|]. destruct s as [|b s]; [discriminate|]. cbn in E.
  destruct (Byte.eqb a b) eqn:Q; [|discriminate]. apply byte_eqb_eq in Q as ->. rewrite (IH _ E). reflexivity.
Qed.
Lemma sound f :
  (forall s v r, parse_value f s = Some (v, r) -> exists p t, s = p ++ t ++ r /\ blank p /\ is_value t v) /\
  (forall s l r, parse_elements f s = Some (l, r) -> exists t, s = t ++ x5d :: r /\ elements t l) /\
  (forall s l r, parse_members f s = Some (l, r) -> exists t, s = t ++ x7d :: r /\ members t l).
Proof.
  induction f as [|f (IHv & IHe & IHm)]; [repeat split; discriminate|]. split; [|split]; intros s v r E.
  - cbn [parse_value] in E. destruct (skip_space s) as [|c s1] eqn:SK; [discriminate|]. apply skip_cons in SK as (p & -> & P & _). apply blank_iff in P.
    assert (Close : forall t r', c :: s1 = t ++ r' -> is_value t v -> r' = r -> exists p0 t0, p ++ c :: s1 = p0 ++ t0 ++ r /\ blank p0 /\ is_value t0 v).
    { intros t r' T V <-. exists p, t. rewrite T. auto. }
    destruct (Byte.eqb c x7b) eqn:B1.
    { apply byte_eqb_eq in B1 as ->. destruct (skip_space s1) as [|c2 r2] eqn:S2; [discriminate|]. destruct (Byte.eqb c2 x7d) eqn:B2.
      - apply byte_eqb_eq in B2 as ->. injection E as <- <-. apply skip_cons in S2 as (q & -> & Q & _). apply blank_iff in Q.
        apply (Close (x7b :: q ++ [x7d]) r2); [cbn; rewrite <- app_assoc; reflexivity|exact (v_no_members q Q)|reflexivity].
      - destruct (parse_members f s1) as [[l r3]|] eqn:M; [|discriminate]. injection E as <- <-. apply IHm in M as (t & -> & M).
        apply (Close (x7b :: t ++ [x7d]) r3); [cbn; rewrite <- app_assoc; reflexivity|exact (v_object t l M)|reflexivity]. }
    destruct (Byte.eqb c x5b) eqn:B3.
    { apply byte_eqb_eq in B3 as ->. destruct (skip_space s1) as [|c2 r2] eqn:S2; [discriminate|]. destruct (Byte.eqb c2 x5d) eqn:B2.
      - apply byte_eqb_eq in B2 as ->. injection E as <- <-. apply skip_cons in S2 as (q & -> & Q & _). apply blank_iff in Q.
        apply (Close (x5b :: q ++ [x5d]) r2); [cbn; rewrite <- app_assoc; reflexivity|exact (v_no_elements q Q)|reflexivity].
      - destruct (parse_elements f s1) as [[l r3]|] eqn:M; [|discriminate]. injection E as <- <-. apply IHe in M as (t & -> & M).
        apply (Close (x5b :: t ++ [x5d]) r3); [cbn; rewrite <- app_assoc; reflexivity|exact (v_array t l M)|reflexivity]. }
    destruct (Byte.eqb c dquote) eqn:B4.
    { apply byte_eqb_eq in B4 as ->. destruct (scan_string s1) as [[raw r2]|] eqn:S; [|discriminate]. injection E as <- <-.
      apply (scanned_chars (Datatypes.S (length s1))) in S as [-> C]; [|lia].
      apply (Close (x22 :: raw ++ [x22]) r2); [cbn; rewrite <- app_assoc; reflexivity|exact (v_str raw C)|reflexivity]. }
    unfold with_word in E. destruct (Byte.eqb c x74).
    { destruct (strip_word w_true (c :: s1)) as [r2|] eqn:W; [|discriminate]. injection E as <- <-. apply word_split in W. apply (Close _ _ W v_true eq_refl). }
    destruct (Byte.eqb c x66).
    { destruct (strip_word w_false (c :: s1)) as [r2|] eqn:W; [|discriminate]. injection E as <- <-. apply word_split in W. apply (Close _ _ W v_false eq_refl). }
    destruct (Byte.eqb c x6e).
    { destruct (strip_word w_null (c :: s1)) as [r2|] eqn:W; [|discriminate]. injection E as <- <-. apply word_split in W. apply (Close _ _ W v_null eq_refl). }
    destruct (scan_number (c :: s1)) as [[t r2]|] eqn:S; [|discriminate]. injection E as <- <-. apply scanned_number in S as [T N]. apply (Close _ _ T (v_num t N) eq_refl).
  - cbn [parse_elements] in E. destruct (parse_value f s) as [[v1 r1]|] eqn:V; [|discriminate]. apply IHv in V as (p & t & -> & P & V).
    destruct (skip_space r1) as [|c r2] eqn:SK; [discriminate|]. apply skip_cons in SK as (q & -> & Q & _). apply blank_iff in Q. destruct (Byte.eqb c x2c) eqn:B.
    + apply byte_eqb_eq in B as ->. destruct (parse_elements f r2) as [[l r3]|] eqn:M; [|discriminate]. injection E as <- <-. apply IHe in M as (t' & -> & M).
      exists (p ++ t ++ q ++ b_ "," ++ t'). split; [rewrite <- !app_assoc; reflexivity|]. now apply e_more.
    + destruct (Byte.eqb c x5d) eqn:B2; [|discriminate]. apply byte_eqb_eq in B2 as ->. injection E as <- <-.
      exists (p ++ t ++ q). split; [rewrite <- !app_assoc; reflexivity|]. now apply e_one.
  - cbn [parse_members] in E. destruct (skip_space s) as [|c s1] eqn:SK; [discriminate|]. apply skip_cons in SK as (p & -> & P & _). apply blank_iff in P.
    destruct (Byte.eqb c dquote) eqn:B0; [|discriminate]. apply byte_eqb_eq in B0 as ->. destruct (scan_string s1) as [[k s2]|] eqn:S; [|discriminate].
    apply (scanned_chars (Datatypes.S (length s1))) in S as [-> C]; [|lia]. destruct (skip_space s2) as [|c2 s3] eqn:SK; [discriminate|].
    apply skip_cons in SK as (q & -> & Q & _). apply blank_iff in Q. destruct (Byte.eqb c2 x3a) eqn:B1; [|discriminate]. apply byte_eqb_eq in B1 as ->.
    destruct (parse_value f s3) as [[v1 r1]|] eqn:V; [|discriminate]. apply IHv in V as (p2 & t & -> & P2 & V).
    destruct (skip_space r1) as [|c3 r2] eqn:SK; [discriminate|]. apply skip_cons in SK as (q2 & -> & Q2 & _). apply blank_iff in Q2. destruct (Byte.eqb c3 x2c) eqn:B.
    + apply byte_eqb_eq in B as ->. destruct (parse_members f r2) as [[l r3]|] eqn:M; [|discriminate]. injection E as <- <-. apply IHm in M as (t' & -> & M).
      exists (p ++ x22 :: k ++ x22 :: q ++ b_ ":" ++ p2 ++ t ++ q2 ++ b_ "," ++ t'). split; [|now apply m_more].
      repeat (rewrite <- ?app_assoc; cbn [app]). reflexivity.
    + destruct (Byte.eqb c3 x7d) eqn:B2; [|discriminate]. apply byte_eqb_eq in B2 as ->. injection E as <- <-.
      exists (p ++ x22 :: k ++ x22 :: q ++ b_ ":" ++ p2 ++ t ++ q2). split; [|now apply m_one].
      repeat (rewrite <- ?app_assoc; cbn [app]). reflexivity.
Qed.

(** ** What is in the grammar is read *)
Lemma value_head t v : is_value t v -> exists c t', t = c :: t' /\ json_space c = false /\ c <> x5d /\ c <> x7d.
Proof.
  destruct 1 as [| | |s N|s _|p _|t l _|p _|t l _]; try (eexists _, _; split; [reflexivity|]; split; [reflexivity|]; split; discriminate).
  destruct N as (sign & i & f & e & -> & S & I & _).
  assert (H : exists c t', i = c :: t' /\ json_space c = false /\ c <> x5d /\ c <> x7d).
  { destruct I as [->|(d & ds & -> & D & _)]; [eexists _, _; split; [reflexivity|]; split; [reflexivity|]; split; discriminate|].
    eexists d, _. split; [reflexivity|]. cbn in D. repeat (destruct D as [<-|D]; [split; [reflexivity|]; split; discriminate|]). destruct D. }
  destruct S as [<-|[<-|[]]]; [|eexists _, _; split; [reflexivity|]; split; [reflexivity|]; split; discriminate].
  destruct H as (c & t' & -> & H). eexists c, _. split; [reflexivity|exact H].
Qed.
Lemma num_value s : number s -> exists c t, s = c :: t /\ (c = x2d \/ is_digit c = true).
Proof.
  intros (sign & i & f & e & -> & S & I & _). destruct S as [<-|[<-|[]]]; [|eexists _, _; split; [reflexivity|auto]].
  destruct I as [->|(d & ds & -> & D & _)]; [eexists _, _; split; [reflexivity|auto]|]. eexists d, _. split; [reflexivity|]. right.
  cbn in D. repeat (destruct D as [<-|D]; [reflexivity|]). destruct D.
Qed.
Lemma word_there w r : strip_word w (w ++ r) = Some r.
Proof. induction w as [|a w IH]; [reflexivity|]. cbn. now rewrite byte_eqb_refl. Qed.
Lemma complete :
  (forall t v, is_value t v -> exists n, forall g r, n <= g -> num_end r -> parse_value g (t ++ r) = Some (v, r)) /\
  (forall t l, elements t l -> exists n, forall g r, n <= g -> parse_elements g (t ++ x5d :: r) = Some (l, r)) /\
  (forall t l, members t l -> exists n, forall g r, n <= g -> parse_members g (t ++ x7d :: r) = Some (l, r)).
Proof.
  assert (Inner : forall q c r, blank q -> In c [x2c; x5d; x7d] -> num_end (q ++ c :: r)).
  { intros q c r Q C. apply num_end_space; [now apply blank_iff|]. destruct C as [<-|[<-|[<-|[]]]]; repeat split. }
  apply (grammar_mut (fun t v _ => exists n, forall g r, n <= g -> num_end r -> parse_value g (t ++ r) = Some (v, r))
    (fun t l _ => exists n, forall g r, n <= g -> parse_elements g (t ++ x5d :: r) = Some (l, r))
    (fun t l _ => exists n, forall g r, n <= g -> parse_members g (t ++ x7d :: r) = Some (l, r))).
  - exists 1. intros [|g] r L _; [lia|]. reflexivity.
  - exists 1. intros [|g] r L _; [lia|]. reflexivity.
  - exists 1. intros [|g] r L _; [lia|]. reflexivity.
  - intros s N. exists 1. intros [|g] r L R; [lia|]. pose proof (scan_the_number s r N R) as S. destruct (num_value s N) as (c & t & -> & C).
    destruct (num_first c C) as (F0 & F). cbn [app parse_value]. cbn [app] in S. rewrite skip_hd by exact F0. rewrite S. 
    destruct C as [->|C]; [reflexivity|]. destruct c; try discriminate C; reflexivity.
  - intros s C. exists 1. intros [|g] r L R; [lia|]. cbn [app parse_value]. rewrite skip_hd by reflexivity. cbn match. change (Byte.eqb x22 x7b) with false. cbn match.
    change (Byte.eqb x22 x5b) with false. change (Byte.eqb x22 dquote) with true. cbn match. rewrite <- app_assoc. cbn [app]. rewrite (scan_chars s C r). reflexivity.
  - intros p P. exists 1. intros [|g] r L R; [lia|]. change ((b_ "[" ++ p ++ b_ "]") ++ r) with (x5b :: (p ++ [x5d]) ++ r). cbn [parse_value]. rewrite skip_hd by reflexivity.
    rewrite <- app_assoc. cbn [app]. rewrite skip_put by (try reflexivity; now apply blank_iff). reflexivity.
  - intros t l El (n & IH). exists (S n). intros [|g] r L R; [lia|]. change ((b_ "[" ++ t ++ b_ "]") ++ r) with (x5b :: (t ++ [x5d]) ++ r). cbn [parse_value]. rewrite skip_hd by reflexivity.
    rewrite <- app_assoc. cbn [app]. change (Byte.eqb x5b x7b) with false. change (Byte.eqb x5b x5b) with true. cbn match.
    assert (H : exists p c u, t = p ++ c :: u /\ blank p /\ json_space c = false /\ c <> x5d).
    { destruct El as [p t q v P V Q|p t q v t' l P V Q _]; destruct (value_head t v V) as (c & u & -> & C1 & C2 & _); eexists p, c, _; (split; [reflexivity|auto]). }
    destruct H as (p & c & u & -> & P & C1 & C2). rewrite <- app_assoc. cbn [app]. rewrite skip_put by (try assumption; now apply blank_iff). rewrite (eqb_ne c x5d C2).
    specialize (IH g r ltac:(lia)). rewrite <- app_assoc in IH. cbn [app] in IH. rewrite IH. reflexivity.
  - intros p P. exists 1. intros [|g] r L R; [lia|]. change ((b_ "{" ++ p ++ b_ "}") ++ r) with (x7b :: (p ++ [x7d]) ++ r). cbn [parse_value]. rewrite skip_hd by reflexivity.
    rewrite <- app_assoc. cbn [app]. rewrite skip_put by (try reflexivity; now apply blank_iff). reflexivity.
  - intros t l El (n & IH). exists (S n). intros [|g] r L R; [lia|]. change ((b_ "{" ++ t ++ b_ "}") ++ r) with (x7b :: (t ++ [x7d]) ++ r). cbn [parse_value]. rewrite skip_hd by reflexivity.
    rewrite <- app_assoc. cbn [app]. change (Byte.eqb x7b x7b) with true. cbn match.
    assert (H : exists p u, t = p ++ x22 :: u /\ blank p) by (destruct El; eexists p, _; (split; [reflexivity|auto])).
    destruct H as (p & u & -> & P). rewrite <- app_assoc. cbn [app]. rewrite skip_put by (try reflexivity; now apply blank_iff). change (Byte.eqb x22 x7d) with false. cbn match.
    specialize (IH g r ltac:(lia)). rewrite <- app_assoc in IH. cbn [app] in IH. rewrite IH. reflexivity.
  - intros p t q v P V (n & IH) Q. exists (S n). intros [|g] r L; [lia|]. cbn [parse_elements]. rewrite <- !app_assoc. rewrite value_space by (now apply blank_iff).
    rewrite IH by first [lia | apply Inner; [exact Q|cbn; auto]]. rewrite skip_put by (try reflexivity; now apply blank_iff). reflexivity.
  - intros p t q v t' l P V (n & IH) Q El (n2 & IH2). exists (S (n + n2)). intros [|g] r L; [lia|]. cbn [parse_elements]. rewrite <- !app_assoc. rewrite value_space by (now apply blank_iff).
    change (q ++ b_ "," ++ t' ++ x5d :: r) with (q ++ x2c :: t' ++ x5d :: r).
    rewrite IH by first [lia | apply Inner; [exact Q|cbn; auto]]. rewrite skip_put by (try reflexivity; now apply blank_iff). change (Byte.eqb x2c x2c) with true. cbn match.
    rewrite IH2 by lia. reflexivity.
  - intros p k q p2 t q2 v P C Q P2 V (n & IH) Q2. exists (S n). intros [|g] r L; [lia|]. cbn [parse_members]. rewrite <- app_assoc. cbn [app].
    rewrite skip_put by (try reflexivity; now apply blank_iff). change (Byte.eqb x22 dquote) with true. cbn match. rewrite <- app_assoc. cbn [app]. rewrite (scan_chars k C).
    change (b_ ":" ++ p2 ++ t ++ q2) with (x3a :: p2 ++ t ++ q2). rewrite <- app_assoc. cbn [app].
    rewrite skip_put by (try reflexivity; now apply blank_iff). change (Byte.eqb x3a x3a) with true. cbn match. rewrite <- !app_assoc. rewrite value_space by (now apply blank_iff).
    rewrite IH by first [lia | apply Inner; [exact Q2|cbn; auto]]. rewrite skip_put by (try reflexivity; now apply blank_iff). reflexivity.
  - intros p k q p2 t q2 v t' l P C Q P2 V (n & IH) Q2 El (n2 & IH2). exists (S (n + n2)). intros [|g] r L; [lia|]. cbn [parse_members]. rewrite <- app_assoc. cbn [app].
    rewrite skip_put by (try reflexivity; now apply blank_iff). change (Byte.eqb x22 dquote) with true. cbn match. rewrite <- app_assoc. cbn [app]. rewrite (scan_chars k C).
    change (b_ ":" ++ p2 ++ t ++ q2 ++ b_ "," ++ t') with (x3a :: p2 ++ t ++ q2 ++ x2c :: t'). rewrite <- app_assoc. cbn [app].
    rewrite skip_put by (try reflexivity; now apply blank_iff). change (Byte.eqb x3a x3a) with true. cbn match. rewrite <- !app_assoc. cbn [app]. rewrite value_space by (now apply blank_iff).
    rewrite IH by first [lia | apply Inner; [exact Q2|cbn; auto]]. rewrite skip_put by (try reflexivity; now apply blank_iff). change (Byte.eqb x2c x2c) with true. cbn match.
    rewrite IH2 by lia. reflexivity.
Qed.
Lemma parse_iff s v : parse s = Some v <-> is_text s v.
Proof.
  split.
  - unfold parse. destruct (parse_value (S (2 * length s)) s) as [[v' r]|] eqn:P; [|discriminate]. destruct (skip_space r) eqn:R; [|discriminate]. intros [= ->].
    apply (proj1 (sound _)) in P as (p & t & -> & P & V). exists p, t, r. split; [reflexivity|]. split; [exact P|]. split; [exact V|]. apply blank_iff, skip_nil, R.
  - intros (p & t & q & -> & P & V & Q). apply (proj1 complete) in V as (n & V). apply (parse_any n _ v q).
    + rewrite value_space by (now apply blank_iff). apply V; [lia|]. apply space_end, blank_iff, Q.
    + apply skip_all, blank_iff, Q.
Qed.
