(** Proofs about CmdModel. *)
From Coq Require Import Strings.String ZArith Lia.
From Verif Require Import Base BaseLemmas UtilModel UtilDuration DbModel JsonText JsonTextProofs JsonModel ConfModel DsnModel DsnProofs WireModel CmdModel.
Local Open Scope list_scope.
Local Notation b_ s := (list_byte_of_string s%string).
Local Open Scope bool_scope.
Local Notation length := List.length.

(** ** What is to be shown *)
Definition good_name (n : bytes) : Prop := exists c r, n = c :: r /\ c <> minus /\ ~ In equals n.
(** What a text means for a flag *)
Inductive denotes : kind -> bytes -> value -> Prop :=
| d_text t : denotes KText t (VText t)
| d_int t z : parse_int0 t = Some z -> denotes KInt t (VInt z)
| d_true t : In t [b_ "1"; b_ "t"; b_ "T"; b_ "true"; b_ "TRUE"; b_ "True"] -> denotes KBool t (VBool true)
| d_false t : In t [b_ "0"; b_ "f"; b_ "F"; b_ "false"; b_ "FALSE"; b_ "False"] -> denotes KBool t (VBool false).
(** The ways to set a variable: -name=text, -name text, and -name alone for a boolean; two minuses mean the same as one. *)
Inductive writes (defs : list flagdef) : list bytes -> bytes -> value -> Prop :=
| w_with m name k v t x : In m [[minus]; [minus; minus]] -> good_name name -> In (name, k, v) defs -> denotes k t x -> writes defs [m ++ name ++ equals :: t] v x
| w_next m name k v t x : In m [[minus]; [minus; minus]] -> good_name name -> In (name, k, v) defs -> k <> KBool -> denotes k t x -> writes defs [m ++ name; t] v x
| w_bare m name v : In m [[minus]; [minus; minus]] -> good_name name -> In (name, KBool, v) defs -> writes defs [m ++ name] v (VBool true).
(** An argument which is no flag *)
Definition plain (s : bytes) : Prop := s = [] \/ s = [minus] \/ exists c r, s = c :: r /\ c <> minus.
(** Where the flags end, and what is left *)
Inductive stops : list bytes -> list bytes -> Prop :=
| stop_end : stops [] []
| stop_dashes r : stops ([minus; minus] :: r) r
| stop_plain s r : plain s -> stops (s :: r) (s :: r).
Definition setting : Type := list bytes * bytes * value.
Definition s_args (s : setting) : list bytes := fst (fst s).
Definition s_var (s : setting) : bytes := snd (fst s).
Definition s_value (s : setting) : value := snd s.
Definition all_write (defs : list flagdef) (l : list setting) : Prop := Forall (fun s => writes defs (s_args s) (s_var s) (s_value s)) l.
Definition line (l : list setting) : list bytes := concat (map s_args l).
(** The last value a variable was set to *)
Definition last_of (l : list setting) (d : env) (v : bytes) : value := match find (fun s => beqb (s_var s) v) (rev l) with Some s => s_value s | None => d v end.
Definition names (defs : list flagdef) : list bytes := map (fun d => fst (fst d)) defs.
Definition applied (l : list setting) (e : env) : env := fold_left (fun e s => upd e (s_var s) (s_value s)) l e.

(** ** Small facts *)
Lemma applied_last l : forall e v, applied l e v = last_of l e v.
Proof.
  induction l as [|s l IH] using rev_ind; intros e v; [reflexivity|]. unfold applied. rewrite fold_left_app. cbn [fold_left]. unfold last_of. rewrite rev_app_distr. cbn [rev app find].
  unfold upd at 1. rewrite (beqb_sym v (s_var s)). destruct (beqb (s_var s) v); [reflexivity|]. exact (IH e v).
Qed.
Lemma look_in defs name k v : NoDup (names defs) -> (look defs name = Some (k, v) <-> In (name, k, v) defs).
Proof.
  unfold look. induction defs as [|[[n k'] v'] defs IH]; intros N; cbn [find In]; [split; [discriminate|intros []]|].
  cbn [names map fst] in N. inversion N as [|? ? N1 N2]; subst. cbn [fst]. destruct (beqb n name) eqn:E.
  - apply beqb_eq in E. subst n. split; [intros H; injection H as <- <-; now left|].
    intros [H|H]; [now injection H as <- <-|]. exfalso. apply N1. apply in_map_iff. now exists (name, k, v).
  - rewrite (IH N2). split; [now right|]. intros [H|H]; [|exact H]. injection H as -> _ _. rewrite beqb_refl in E. discriminate.
Qed.
Lemma words t l : existsb (beqb t) l = true <-> In t l.
Proof.
  rewrite existsb_exists. split.
  - intros (x & I & E). apply beqb_eq in E. now subst.
  - intros I. exists t. split; [exact I|apply beqb_refl].
Qed.
Lemma bool_words t b : parse_bool t = Some b <-> denotes KBool t (VBool b).
Proof.
  unfold parse_bool. match goal with |- context [existsb (beqb t) ?a] => pose proof (words t a) as A end.
  match goal with |- context [if existsb (beqb t) ?a then _ else if existsb (beqb t) ?c then _ else _] => pose proof (words t c) as B; destruct (existsb (beqb t) a) eqn:Ea; [|destruct (existsb (beqb t) c) eqn:Ec] end.
  - split; [intros H; injection H as <-; constructor; now apply A|]. intros H. inversion H as [| | |? I]; subst; [reflexivity|]. exfalso.
    assert (X := proj1 A eq_refl). cbn [In] in I, X. decompose [or] I; try contradiction; subst t; decompose [or] X; (discriminate || contradiction).
  - split; [intros H; injection H as <-; constructor; now apply B|]. intros H. inversion H as [| |? I|]; subst; [|reflexivity]. apply A in I. discriminate.
  - split; [discriminate|]. intros H. inversion H as [| |? I|? I]; subst; [apply A in I|apply B in I]; discriminate.
Qed.
Lemma reads k t x : read_value k t = Some x <-> denotes k t x.
Proof.
  destruct k; cbn [read_value].
  - split; intros H; [injection H as <-; constructor | inversion H; reflexivity].
  - split; intros H.
    + destruct (parse_int0 t) as [z|] eqn:E; [|discriminate]. injection H as <-. now constructor.
    + inversion H as [|? ? E| |]; subst. now rewrite E.
  - split; intros H.
    + destruct (parse_bool t) as [b|] eqn:E; [|discriminate]. injection H as <-. now apply bool_words.
    + assert (exists b, x = VBool b) as [b ->] by (inversion H; eauto). apply bool_words in H. now rewrite H.
Qed.
Lemma split_parts c s : forall a b, split_first c s = Some (a, b) -> s = a ++ c :: b /\ ~ In c a.
Proof.
  induction s as [|d s IH]; intros a b H; [discriminate|]. cbn [split_first] in H. destruct (Byte.eqb d c) eqn:E.
  - apply byte_eqb_eq in E. subst d. injection H as <- <-. split; [reflexivity | intros []].
  - destruct (split_first c s) as [[a' b']|]; [|discriminate]. injection H as <- <-. destruct (IH _ _ eq_refl) as [-> N]. split; [reflexivity|].
    intros [->|I]; [|exact (N I)]. rewrite byte_eqb_refl in E. discriminate.
Qed.
Lemma split_absent c s : split_first c s = None -> ~ In c s.
Proof.
  induction s as [|d s IH]; intros H; [intros []|]. cbn [split_first] in H. destruct (Byte.eqb d c) eqn:E; [discriminate|].
  destruct (split_first c s) as [[a b]|]; [discriminate|]. intros [->|I]; [|exact (IH eq_refl I)]. rewrite byte_eqb_refl in E. discriminate.
Qed.
Lemma classify_at m name o : In m [[minus]; [minus; minus]] -> good_name name ->
  classify (m ++ name ++ match o with Some t => equals :: t | None => [] end) = Named name o.
Proof.
  intros M (c & r & -> & Hc & He). pose proof (eqb_no _ _ Hc) as E. assert (E' : Byte.eqb c equals = false) by (apply eqb_no; intros ->; apply He; now left).
  set (z := match o with Some t => equals :: t | None => [] end).
  assert (S : match split_first equals (c :: r ++ z) with Some (n, t) => Named n (Some t) | None => Named (c :: r ++ z) None end = Named (c :: r) o).
  { unfold z. destruct o as [t|].
    - change (c :: r ++ equals :: t) with ((c :: r) ++ equals :: t). now rewrite split_first_at.
    - rewrite app_nil_r. now rewrite split_first_none. }
  cbn [In] in M. destruct M as [<-|[<-|[]]]; cbn [app classify]; rewrite byte_eqb_refl; cbn [negb].
  - repeat rewrite E. rewrite E'. cbn [andb orb]. exact S.
  - repeat rewrite byte_eqb_refl. cbn [andb beqb]. repeat rewrite E. rewrite E'. cbn [orb]. exact S.
Qed.
Lemma classify_named s name o : classify s = Named name o -> good_name name /\ exists m, In m [[minus]; [minus; minus]] /\
  s = m ++ name ++ match o with Some t => equals :: t | None => [] end.
Proof.
  destruct s as [|m [|c r]]; try discriminate. cbn [classify]. destruct (Byte.eqb m minus) eqn:M; [|discriminate]. apply byte_eqb_eq in M. subst m. cbn [negb].
  destruct (Byte.eqb c minus && beqb r []); [discriminate|]. set (w := if Byte.eqb c minus then r else c :: r). intros H.
  assert (W : exists m, In m [[minus]; [minus; minus]] /\ minus :: c :: r = m ++ w).
  { unfold w. destruct (Byte.eqb c minus) eqn:E; [apply byte_eqb_eq in E; subst c; exists [minus; minus] | exists [minus]]; split; cbn [In]; auto. }
  destruct W as (m & Hm & ->). destruct w as [|d w']; [discriminate|]. destruct (Byte.eqb d minus) eqn:D1; [discriminate|]. destruct (Byte.eqb d equals) eqn:D2; [discriminate|]. cbn [orb] in H.
  assert (Nm : d <> minus) by (intros ->; rewrite byte_eqb_refl in D1; discriminate). assert (Ne : d <> equals) by (intros ->; rewrite byte_eqb_refl in D2; discriminate).
  destruct (split_first equals (d :: w')) as [[a b]|] eqn:S.
  - injection H as <- <-. destruct (split_parts _ _ _ _ S) as [Eq N]. destruct a as [|a0 a]; [injection Eq as E0 _; contradiction|]. assert (a0 = d) by (injection Eq; auto). subst a0.
    split; [exists d, a; auto|]. exists m. split; [exact Hm | now rewrite Eq].
  - injection H as <- <-. apply split_absent in S. split; [exists d, w'; auto|]. exists m. split; [exact Hm | now rewrite app_nil_r].
Qed.
Lemma classify_plain s : classify s = Positional <-> plain s.
Proof.
  unfold plain. destruct s as [|m [|c r]].
  - split; auto.
  - split; [|auto]. intros _. destruct (Byte.eqb m minus) eqn:E; [apply byte_eqb_eq in E; subst; auto|]. right. right. exists m, []. split; [reflexivity|]. intros ->. rewrite byte_eqb_refl in E. discriminate.
  - cbn [classify]. destruct (Byte.eqb m minus) eqn:E; cbn [negb].
    + apply byte_eqb_eq in E. subst m. split.
      * destruct (Byte.eqb c minus && beqb r []); [discriminate|]. destruct (if Byte.eqb c minus then r else c :: r) as [|d w]; [discriminate|]. destruct (Byte.eqb d minus || Byte.eqb d equals); [discriminate|].
        destruct (split_first equals (d :: w)) as [[? ?]|]; discriminate.
      * intros [H|[H|(d & q & H & N)]]; try discriminate. exfalso. congruence.
    + split; [|auto]. intros _. right. right. exists m, (c :: r). split; [reflexivity|]. intros ->. rewrite byte_eqb_refl in E. discriminate.
Qed.
Lemma classify_dashes s : classify s = Terminator <-> s = [minus; minus].
Proof.
  split; [|intros ->; reflexivity]. destruct s as [|m [|c r]]; try discriminate. cbn [classify]. destruct (Byte.eqb m minus) eqn:M; [|discriminate]. apply byte_eqb_eq in M. subst m. cbn [negb].
  destruct (Byte.eqb c minus) eqn:C; cbn [andb].
  - apply byte_eqb_eq in C. subst c. destruct (beqb r []) eqn:R; [apply beqb_eq in R; now subst|]. destruct r as [|d w]; [discriminate|]. destruct (Byte.eqb d minus || Byte.eqb d equals); [discriminate|].
    destruct (split_first equals (d :: w)) as [[? ?]|]; discriminate.
  - destruct (Byte.eqb c minus || Byte.eqb c equals); [discriminate|]. destruct (split_first equals (c :: r)) as [[? ?]|]; discriminate.
Qed.

(** ** Parse *)
Lemma parse_one defs (N : NoDup (names defs)) w v x : writes defs w v x -> forall e more, parse defs e (w ++ more) = parse defs (upd e v x) more.
Proof.
  intros H e more. destruct H as [m name k v t x M G D V | m name k v t x M G D K V | m name v M G D]; apply (look_in _ _ _ _ N) in D; cbn [app parse].
  - rewrite (classify_at m name (Some t) M G), D. apply reads in V. rewrite V. destruct k; reflexivity.
  - pose proof (classify_at m name None M G) as C. cbn in C. rewrite app_nil_r in C. rewrite C, D. apply reads in V. rewrite V. destruct k; [reflexivity|reflexivity|now destruct K].
  - pose proof (classify_at m name None M G) as C. cbn in C. rewrite app_nil_r in C. rewrite C, D. reflexivity.
Qed.
Lemma parse_all defs (N : NoDup (names defs)) l : all_write defs l -> forall e more, parse defs e (line l ++ more) = parse defs (applied l e) more.
Proof.
  induction l as [|s l IH]; intros H e more; [reflexivity|]. inversion H as [|? ? H1 H2]; subst. unfold line. cbn [map concat]. rewrite <- app_assoc. rewrite (parse_one _ N _ _ _ H1). exact (IH H2 _ more).
Qed.
Lemma parse_stop defs e tail rest : stops tail rest -> parse defs e tail = Parsed e rest.
Proof. intros [|r|s r P]; [reflexivity|reflexivity|]. cbn [parse]. apply classify_plain in P. now rewrite P. Qed.
Lemma parse_back defs (N : NoDup (names defs)) n : forall args, length args <= n -> forall e e' rest, parse defs e args = Parsed e' rest ->
  exists l tail, args = line l ++ tail /\ all_write defs l /\ stops tail rest /\ e' = applied l e.
Proof.
  induction n as [|n IH]; intros args L e e' rest H.
  { destruct args; [|cbn in L; lia]. injection H as <- <-. exists [], []. repeat split; constructor. }
  destruct args as [|s args]; [injection H as <- <-; exists [], []; repeat split; constructor|]. cbn [parse] in H. destruct (classify s) as [| | |name given] eqn:C.
  - injection H as <- <-. apply classify_plain in C. exists [], (s :: args). repeat split; [constructor | now constructor].
  - injection H as <- <-. apply classify_dashes in C. subst s. exists [], ([minus; minus] :: args). repeat split; constructor.
  - discriminate.
  - destruct (classify_named _ _ _ C) as (G & m & M & Es). destruct (look defs name) as [[k v]|] eqn:D; [|destruct (beqb name (b_ "help") || beqb name (b_ "h")); discriminate].
    apply (look_in _ _ _ _ N) in D. cbn [length] in L.
    assert (Step : forall w x args', s :: args = w ++ args' -> writes defs w v x -> length args' <= n -> parse defs (upd e v x) args' = Parsed e' rest ->
      exists l tail, s :: args = line l ++ tail /\ all_write defs l /\ stops tail rest /\ e' = applied l e).
    { intros w x args' E W L' P. destruct (IH args' L' _ _ _ P) as (l & tail & E1 & A & S & E2). exists ((w, v, x) :: l), tail. split; [unfold line; cbn [map concat]; rewrite E, E1; apply app_assoc|].
      split; [constructor; [exact W|exact A]|]. split; [exact S|exact E2]. }
    destruct given as [t|].
    + assert (H' : match read_value k t with Some x => parse defs (upd e v x) args | None => Bad end = Parsed e' rest) by (destruct k; exact H). clear H.
      destruct (read_value k t) as [x|] eqn:R; [|discriminate]. apply reads in R. apply (Step [s] x args); [reflexivity| |lia|exact H']. subst s. now apply w_with with (k := k).
    + rewrite app_nil_r in Es. subst s. destruct k.
      * destruct args as [|t args]; [discriminate|]. destruct (read_value KText t) as [x|] eqn:R; [|discriminate]. apply reads in R. cbn [length] in L.
        apply (Step [m ++ name; t] x args); [reflexivity| |lia|exact H]. apply w_next with (k := KText); auto. discriminate.
      * destruct args as [|t args]; [discriminate|]. destruct (read_value KInt t) as [x|] eqn:R; [|discriminate]. apply reads in R. cbn [length] in L.
        apply (Step [m ++ name; t] x args); [reflexivity| |lia|exact H]. apply w_next with (k := KInt); auto. discriminate.
      * apply (Step [m ++ name] (VBool true) args); [reflexivity| |lia|exact H]. now apply w_bare.
Qed.
Lemma parse_iff defs (N : NoDup (names defs)) e args e' rest : parse defs e args = Parsed e' rest <->
  exists l tail, args = line l ++ tail /\ all_write defs l /\ stops tail rest /\ e' = applied l e.
Proof.
  split; [exact (parse_back defs N (length args) args (le_n _) e e' rest)|]. intros (l & tail & -> & A & S & ->). rewrite (parse_all _ N _ A). now apply parse_stop.
Qed.

(** The first flag which is not known is help or h. *)
Definition asks_help (defs : list flagdef) (args : list bytes) : Prop := exists l m name o rest,
  args = line l ++ (m ++ name ++ match o with Some t => equals :: t | None => [] end) :: rest /\ all_write defs l /\ In m [[minus]; [minus; minus]] /\ In name [b_ "help"; b_ "h"] /\ ~ In name (names defs).
Lemma look_none defs name : look defs name = None <-> ~ In name (names defs).
Proof.
  unfold look. destruct (find (fun d => beqb (fst (fst d)) name) defs) as [[[n k] v]|] eqn:F.
  - split; [discriminate|]. intros H. exfalso. apply H. apply find_some in F as [I E]. cbn [fst] in E. apply beqb_eq in E. subst n. exact (in_map (fun d => fst (fst d)) _ _ I).
  - split; [|reflexivity]. intros _ H. unfold names in H. apply in_map_iff in H as (d & E & I). pose proof (find_none _ _ F d I) as X. cbn in X. rewrite E, beqb_refl in X. discriminate.
Qed.
Lemma help_names name : beqb name (b_ "help") || beqb name (b_ "h") = true <-> In name [b_ "help"; b_ "h"].
Proof.
  rewrite orb_true_iff, !beqb_eq. cbn [In]. split; [intros [H|H]; auto | intros [H|[H|[]]]; auto].
Qed.
Lemma help_good name : In name [b_ "help"; b_ "h"] -> good_name name.
Proof. cbn [In]. intros [<-|[<-|[]]]; eexists _, _; (split; [reflexivity|]); (split; [discriminate|]); cbn; intros H; decompose [or] H; (discriminate || contradiction). Qed.
Lemma help_back defs (N : NoDup (names defs)) n : forall args, length args <= n -> forall e, parse defs e args = Help -> asks_help defs args.
Proof.
  induction n as [|n IH]; intros args L e H.
  { destruct args; [discriminate|cbn in L; lia]. }
  destruct args as [|s args]; [discriminate|]. cbn [parse] in H. destruct (classify s) as [| | |name given] eqn:C; try discriminate.
  destruct (classify_named _ _ _ C) as (G & m & M & Es). destruct (look defs name) as [[k v]|] eqn:D.
  - apply (look_in _ _ _ _ N) in D. cbn [length] in L.
    assert (Step : forall w x args', s :: args = w ++ args' -> writes defs w v x -> length args' <= n -> parse defs (upd e v x) args' = Help -> asks_help defs (s :: args)).
    { intros w x args' E W L' P. destruct (IH args' L' _ P) as (l & m' & name' & o & rest & E1 & A & R). exists ((w, v, x) :: l), m', name', o, rest. split; [unfold line; cbn [map concat]; rewrite E, E1; apply app_assoc|].
      split; [constructor; [exact W|exact A]|exact R]. }
    destruct given as [t|].
    + assert (H' : match read_value k t with Some x => parse defs (upd e v x) args | None => Bad end = Help) by (destruct k; exact H). clear H.
      destruct (read_value k t) as [x|] eqn:R; [|discriminate]. apply reads in R. apply (Step [s] x args); [reflexivity| |lia|exact H']. subst s. now apply w_with with (k := k).
    + rewrite app_nil_r in Es. subst s. destruct k.
      * destruct args as [|t args]; [discriminate|]. destruct (read_value KText t) as [x|] eqn:R; [|discriminate]. apply reads in R. cbn [length] in L.
        apply (Step [m ++ name; t] x args); [reflexivity| |lia|exact H]. apply w_next with (k := KText); auto. discriminate.
      * destruct args as [|t args]; [discriminate|]. destruct (read_value KInt t) as [x|] eqn:R; [|discriminate]. apply reads in R. cbn [length] in L.
        apply (Step [m ++ name; t] x args); [reflexivity| |lia|exact H]. apply w_next with (k := KInt); auto. discriminate.
      * apply (Step [m ++ name] (VBool true) args); [reflexivity| |lia|exact H]. now apply w_bare.
  - destruct (beqb name (b_ "help") || beqb name (b_ "h")) eqn:B; [|discriminate]. apply help_names in B. apply look_none in D. exists [], m, name, given, args. subst s. repeat split; auto. constructor.
Qed.
Lemma help_iff defs (N : NoDup (names defs)) e args : parse defs e args = Help <-> asks_help defs args.
Proof.
  split; [exact (help_back defs N (length args) args (le_n _) e)|]. intros (l & m & name & o & rest & -> & A & M & I & D). rewrite (parse_all _ N _ A). cbn [parse].
  rewrite (classify_at m name o M (help_good _ I)). apply look_none in D. rewrite D. apply help_names in I. now rewrite I.
Qed.

(** ** Numbers *)
Lemma digit_value c : is_digit c = true -> digit_of c = Some (Z.of_N (Byte.to_N c - 48)) /\ (Z.of_N (Byte.to_N c - 48) < 10)%Z /\ Byte.eqb c underscore = false /\ Byte.eqb c x2b = false /\ Byte.eqb c x2d = false.
Proof. destruct c; intros H; try discriminate H; vm_compute; auto. Qed.
Lemma value_digits s : forallb is_digit s = true -> forall acc, value_in 10 s (Z.of_N acc) = Some (Z.of_N (fold_left (fun a b => a * 10 + (Byte.to_N b - 48))%N s acc)).
Proof.
  induction s as [|c s IH]; intros H acc; [reflexivity|]. cbn [forallb] in H. apply andb_true_iff in H as [H1 H2]. destruct (digit_value c H1) as (D & L & U & _ & _).
  cbn [value_in fold_left]. rewrite U, D. apply Z.ltb_lt in L. rewrite L. rewrite <- (IH H2). f_equal. lia.
Qed.
Lemma no_under s : forallb is_digit s = true -> existsb (Byte.eqb underscore) s = false.
Proof.
  induction s as [|c s IH]; intros H; [reflexivity|]. cbn [forallb] in H. apply andb_true_iff in H as [H1 H2]. cbn [existsb]. rewrite (IH H2). destruct (digit_value c H1) as (_ & _ & U & _).
  destruct (Byte.eqb underscore c) eqn:E; [|reflexivity]. apply byte_eqb_eq in E. subst c. discriminate.
Qed.
Lemma base_ten c s : c <> x30 -> base_of (c :: s) = (10%Z, c :: s).
Proof. intros H. destruct c; try reflexivity. contradiction. Qed.
(** Digits, the first one not zero *)
Lemma decimal_text c s sign : c <> x30 -> forallb is_digit (c :: s) = true -> In sign [[]; [x2b]; [x2d]] ->
  parse_int0 (sign ++ c :: s) = let v := (if beqb sign [x2d] then - Z.of_N (dec_value (c :: s)) else Z.of_N (dec_value (c :: s)))%Z in if ((- 2 ^ 63 <=? v) && (v <? 2 ^ 63))%Z then Some v else None.
Proof.
  intros Hc Hd Hs. pose proof (base_ten c s Hc) as B. pose proof (value_digits _ Hd 0%N) as V. pose proof (no_under _ Hd) as U. change (Z.of_N 0) with 0%Z in V. fold (dec_value (c :: s)) in V.
  pose proof Hd as Hc2. cbn [forallb] in Hc2. apply andb_true_iff in Hc2 as [Hc2 _]. destruct (digit_value c Hc2) as (_ & _ & _ & P1 & P2).
  cbn [In] in Hs. destruct Hs as [<-|[<-|[<-|[]]]]; cbn [app]; unfold parse_int0.
  - rewrite P1, P2, B, V, U. reflexivity.
  - change (Byte.eqb x2b x2b) with true. cbv iota. rewrite B, V, U. reflexivity.
  - change (Byte.eqb x2d x2b) with false. change (Byte.eqb x2d x2d) with true. cbv iota. rewrite B, V, U. reflexivity.
Qed.
Lemma decimal_own z : (- 2 ^ 63 <= z < 2 ^ 63)%Z -> parse_int0 (dec_Z z) = Some z.
Proof.
  intros Hz. unfold dec_Z. destruct (z <? 0)%Z eqn:E; [apply Z.ltb_lt in E | apply Z.ltb_ge in E].
  - destruct (dec_N_head (Z.to_N (- z))) as (c & s & D & H0 & H1 & H2); [lia|]. rewrite D. change (x2d :: c :: s) with ([x2d] ++ c :: s).
    rewrite decimal_text; [|exact H0|cbn [forallb]; now rewrite H1, H2|cbn [In]; auto]. rewrite <- D, dec_N_value. change (beqb [x2d] [x2d]) with true. cbv iota zeta. rewrite Z2N.id by lia. rewrite Z.opp_involutive.
    replace ((- 2 ^ 63 <=? z) && (z <? 2 ^ 63))%Z with true; [reflexivity|]. symmetry. apply andb_true_iff. split; [apply Z.leb_le | apply Z.ltb_lt]; lia.
  - destruct (Z.eq_dec z 0) as [->|N]; [reflexivity|]. destruct (dec_N_head (Z.to_N z)) as (c & s & D & H0 & H1 & H2); [lia|]. rewrite D. change (c :: s) with ([] ++ c :: s).
    rewrite decimal_text; [|exact H0|cbn [forallb]; now rewrite H1, H2|cbn [In]; auto]. rewrite <- D, dec_N_value. change (beqb [] [x2d]) with false. cbv iota zeta. rewrite Z2N.id by lia.
    replace ((- 2 ^ 63 <=? z) && (z <? 2 ^ 63))%Z with true; [reflexivity|]. symmetry. apply andb_true_iff. split; [apply Z.leb_le | apply Z.ltb_lt]; lia.
Qed.
(** Octal digits after a zero *)
Definition octal_value (s : bytes) : Z := fold_left (fun v b => v * 8 + (Z.of_N (Byte.to_N b) - 48))%Z s 0%Z.
Definition octal (c : byte) : Prop := In c [x30; x31; x32; x33; x34; x35; x36; x37].
Lemma octal_one c : octal c -> digit_of c = Some (Z.of_N (Byte.to_N c) - 48)%Z /\ (Z.of_N (Byte.to_N c) - 48 <? 8)%Z = true /\ Byte.eqb c underscore = false /\ (low c =? 98)%Z = false /\ (low c =? 111)%Z = false /\ (low c =? 120)%Z = false.
Proof. unfold octal. cbn [In]. intros H. decompose [or] H; subst; try contradiction; vm_compute; auto 10. Qed.
Lemma value_octal s : Forall octal s -> forall acc, value_in 8 s acc = Some (fold_left (fun v b => v * 8 + (Z.of_N (Byte.to_N b) - 48))%Z s acc).
Proof.
  induction 1 as [|c s Hc Hs IH]; intros acc; [reflexivity|]. destruct (octal_one c Hc) as (D & L & U & _). cbn [value_in fold_left]. rewrite U, D, L. apply IH.
Qed.
Lemma octal_no_under s : Forall octal s -> existsb (Byte.eqb underscore) s = false.
Proof.
  induction 1 as [|c s Hc Hs IH]; [reflexivity|]. cbn [existsb]. rewrite IH. destruct (octal_one c Hc) as (_ & _ & U & _). destruct (Byte.eqb underscore c) eqn:E; [|reflexivity]. apply byte_eqb_eq in E. subst c. discriminate.
Qed.
Lemma octal_text s : Forall octal s -> (octal_value s < 2 ^ 63)%Z -> parse_int0 (x30 :: s) = Some (octal_value s).
Proof.
  intros H L. assert (B : base_of (x30 :: s) = (8%Z, s)).
  { destruct s as [|c [|d r]]; [reflexivity|reflexivity|]. inversion H as [|? ? Hc _]; subst. destruct (octal_one c Hc) as (_ & _ & _ & A & A' & A''). cbn [base_of]. now rewrite A, A', A''. }
  assert (P : (0 <= octal_value s)%Z).
  { unfold octal_value. assert (G : forall acc, (0 <= acc -> 0 <= fold_left (fun v b => v * 8 + (Z.of_N (Byte.to_N b) - 48)) s acc)%Z); [|apply G; lia]. clear L B.
    induction H as [|c s Hc Hs IH]; intros acc A; [exact A|]. cbn [fold_left]. apply IH. destruct (octal_one c Hc) as (D & _). unfold digit_of in D. destruct ((48 <=? Z.of_N (Byte.to_N c)) && (Z.of_N (Byte.to_N c) <=? 57))%Z eqn:E.
    - apply andb_true_iff in E as [E _]. apply Z.leb_le in E. lia.
    - unfold octal in Hc. cbn [In] in Hc. decompose [or] Hc; subst; try contradiction; discriminate E. }
  unfold parse_int0. change (Byte.eqb x30 x2b) with false. change (Byte.eqb x30 x2d) with false. cbv iota. rewrite B, (value_octal s H 0), (octal_no_under s H). fold (octal_value s). cbv iota zeta. cbn [andb].
  replace ((- 2 ^ 63 <=? octal_value s) && (octal_value s <? 2 ^ 63))%Z with true; [reflexivity|]. symmetry. apply andb_true_iff. split; [apply Z.leb_le | apply Z.ltb_lt]; lia.
Qed.
(** Digits after a mark for the base *)
Definition table : list (byte * Z) := combine (b_ "0123456789abcdefABCDEF") [0; 1; 2; 3; 4; 5; 6; 7; 8; 9; 10; 11; 12; 13; 14; 15; 10; 11; 12; 13; 14; 15]%Z.
Definition marks : list (byte * Z) := combine (b_ "bBoOxX") [2; 2; 8; 8; 16; 16]%Z.
Definition worth (base : Z) (ds : list (byte * Z)) : Z := fold_left (fun v d => v * base + snd d)%Z ds 0%Z.
Lemma table_one c d : In (c, d) table -> digit_of c = Some d /\ Byte.eqb c underscore = false /\ Byte.eqb underscore c = false.
Proof. unfold table. cbn [In combine list_byte_of_string]. intros H. vm_compute in H. decompose [or] H; try contradiction; match goal with E : _ = _ |- _ => injection E as <- <- end; vm_compute; auto. Qed.
Lemma value_table base ds : Forall (fun d => In d table /\ (snd d < base)%Z) ds -> forall acc, value_in base (map fst ds) acc = Some (fold_left (fun v d => v * base + snd d)%Z ds acc).
Proof.
  induction 1 as [|[c d] ds [Hc Hd] Hs IH]; intros acc; [reflexivity|]. destruct (table_one c d Hc) as (D & U & _). cbn [map fst value_in fold_left]. rewrite U, D. cbn [snd] in *. apply Z.ltb_lt in Hd. rewrite Hd. apply IH.
Qed.
Lemma table_no_under base ds : Forall (fun d => In d table /\ (snd d < base)%Z) ds -> existsb (Byte.eqb underscore) (map fst ds) = false.
Proof. induction 1 as [|[c d] ds [Hc Hd] Hs IH]; [reflexivity|]. cbn [map fst existsb]. destruct (table_one c d Hc) as (_ & _ & U). now rewrite U, IH. Qed.
Lemma mark_base m base c s : In (m, base) marks -> base_of (x30 :: m :: c :: s) = (base, c :: s).
Proof. intros H. vm_compute in H. decompose [or] H; try contradiction; match goal with E : _ = _ |- _ => injection E as <- <- end; reflexivity. Qed.
Lemma marked_text m base ds sign : In (m, base) marks -> ds <> [] -> Forall (fun d => In d table /\ (snd d < base)%Z) ds -> In sign [[]; [x2b]; [x2d]] ->
  parse_int0 (sign ++ x30 :: m :: map fst ds) = let v := (if beqb sign [x2d] then - worth base ds else worth base ds)%Z in if ((- 2 ^ 63 <=? v) && (v <? 2 ^ 63))%Z then Some v else None.
Proof.
  intros Hm Hn Hd Hs. pose proof (value_table base ds Hd 0) as V. pose proof (table_no_under base ds Hd) as U. fold (worth base ds) in V.
  assert (B : base_of (x30 :: m :: map fst ds) = (base, map fst ds)) by (destruct ds; [contradiction|]; now apply mark_base).
  cbn [In] in Hs. destruct Hs as [<-|[<-|[<-|[]]]]; cbn [app]; unfold parse_int0.
  - change (Byte.eqb x30 x2b) with false. change (Byte.eqb x30 x2d) with false. cbv iota. rewrite B, V, U. reflexivity.
  - change (Byte.eqb x2b x2b) with true. cbv iota. rewrite B, V, U. reflexivity.
  - change (Byte.eqb x2d x2b) with false. change (Byte.eqb x2d x2d) with true. cbv iota. rewrite B, V, U. reflexivity.
Qed.
