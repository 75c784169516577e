(** Proofs about JournalText: the indented text is one of the grammar, reading it back, its strict prefixes, and what every accepted text yields. *)
From Coq Require Import Strings.String Permutation.
From Verif Require Import Base BaseLemmas UtilModel UtilDuration DbModel LoadModel LoadProofs PolicyModel JournalModel JournalIntervals JournalProofs
  JsonText JsonTextProofs JsonParse JsonModel JsonProofs JsonRead JsonEvery JsonStable JsonGrammar JournalText.
Local Open Scope list_scope.
Local Notation b_ s := (list_byte_of_string s%string).

(** ** Indentation *)
Lemma blank_newline d : blank (newline d).
Proof. unfold newline, blank. constructor; [cbn; auto|]. apply Forall_forall. intros c I. apply repeat_spec in I as ->. cbn; auto. Qed.
Lemma blank_app p q : blank p -> blank q -> blank (p ++ q).
Proof. intros P Q. apply Forall_app. auto. Qed.
Lemma blank_nil : blank [].
Proof. constructor. Qed.
Lemma blank_space : blank [x20].
Proof. constructor; cbn; auto. Qed.
Lemma elements_blank p t l : blank p -> elements t l -> elements (p ++ t) l.
Proof. intros P E. destruct E as [p' t q v P' V Q|p' t q v t' l P' V Q E]; rewrite app_assoc; constructor; auto using blank_app. Qed.
Lemma members_blank p t l : blank p -> members t l -> members (p ++ t) l.
Proof. intros P E. destruct E as [p' k q p2 t q2 v P' C Q P2 V Q2|p' k q p2 t q2 v t' l P' C Q P2 V Q2 E]; rewrite app_assoc; constructor; auto using blank_app. Qed.

(** bytes outside strings that are copied *)
Definition copied (c : byte) : bool := negb (existsb (Byte.eqb c) [x20; x09; x0d; x0a; x22; x7b; x5b; x2c; x3a; x7d; x5d]).
Lemma indent_copied c s d need : copied c = true -> indent (c :: s) d need false =
  (if need then newline (S d) else []) ++ c :: indent s (if need then S d else d) false false.
Proof. intros C. destruct need; destruct c; try discriminate C; reflexivity. Qed.
Lemma indent_word w : forallb copied w = true -> forall r d, indent (w ++ r) d false false = w ++ indent r d false false.
Proof.
  induction w as [|c w IH]; intros F r d; [reflexivity|]. cbn [forallb] in F. apply andb_prop in F as [F1 F2]. cbn [app]. rewrite indent_copied by exact F1. cbn [app]. now rewrite IH.
Qed.
Lemma indent_copy w : forallb copied w = true -> w <> [] -> forall r d need, indent (w ++ r) d need false =
  (if need then newline (S d) else []) ++ w ++ indent r (if need then S d else d) false false.
Proof.
  destruct w as [|c w]; [congruence|]. intros F _ r d need. cbn [forallb] in F. apply andb_prop in F as [F1 F2]. cbn [app]. rewrite indent_copied by exact F1.
  now rewrite indent_word.
Qed.
Lemma copied_in c l : forallb copied l = true -> In c l -> copied c = true.
Proof. intros F I. rewrite forallb_forall in F. auto. Qed.
Lemma digits_copied s : digits s -> forallb copied s = true.
Proof. intros D. apply forallb_forall. intros c I. unfold digits in D. rewrite Forall_forall in D. apply (copied_in c (b_ "0123456789")); [reflexivity|auto]. Qed.
Lemma number_copied s : number s -> forallb copied s = true /\ s <> [].
Proof.
  intros (sign & i & f & e & -> & S & I & F & E). rewrite !forallb_app. split.
  - apply andb_true_iff. split; [destruct S as [<-|[<-|[]]]; reflexivity|]. apply andb_true_iff. split; [|apply andb_true_iff; split].
    + destruct I as [->|(d & ds & -> & D & Ds)]; [reflexivity|]. cbn [forallb]. rewrite (copied_in d (b_ "123456789")), (digits_copied ds) by (reflexivity || assumption). reflexivity.
    + destruct F as [->|(ds & -> & _ & Ds)]; [reflexivity|]. rewrite forallb_app, (digits_copied ds) by assumption. reflexivity.
    + destruct E as [->|(c & g & ds & -> & C & G & _ & Ds)]; [reflexivity|]. cbn [forallb]. rewrite forallb_app, (copied_in c (b_ "eE")), (digits_copied ds) by (reflexivity || assumption).
      destruct G as [<-|[<-|[<-|[]]]]; reflexivity.
  - destruct I as [->|(d & ds & -> & _)]; destruct sign; discriminate.
Qed.
(** strings are copied *)
Lemma indent_in c s d need : c <> x22 -> c <> x5c -> indent (c :: s) d need true = c :: indent s d need true.
Proof. intros N1 N2. cbn [indent]. unfold bslash, dquote. rewrite (eqb_ne c x5c N2), (eqb_ne c x22 N1). reflexivity. Qed.
Lemma indent_pair e s d need : indent (x5c :: e :: s) d need true = x5c :: e :: indent s d need true.
Proof. reflexivity. Qed.
Lemma hex_plain h : In h (b_ "0123456789abcdefABCDEF") -> h <> x22 /\ h <> x5c.
Proof. intros I. apply in_iff in I. split; intros ->; discriminate I. Qed.
Lemma indent_chars raw : chars raw -> forall r d need, indent (raw ++ x22 :: r) d need true = raw ++ x22 :: indent r d need false.
Proof.
  induction 1 as [|c s L N1 N2 _ IH|e s E _ IH|a b c d s F _ IH]; intros r dd need; [reflexivity| | |].
  - cbn [app]. rewrite indent_in by assumption. now rewrite IH.
  - cbn [app]. rewrite indent_pair. now rewrite IH.
  - cbn [app]. rewrite indent_pair. inversion F as [|? ? Ha F1]; subst. inversion F1 as [|? ? Hb F2]; subst. inversion F2 as [|? ? Hc F3]; subst. inversion F3 as [|? ? Hd _]; subst.
    rewrite !indent_in by (now apply hex_plain). now rewrite IH.
Qed.
Lemma raw_chars raw : raw_ok raw -> chars raw.
Proof. intros R. specialize (R []). apply (scanned_chars (S (length (raw ++ [dquote])))) in R as [_ R]; [exact R|lia]. Qed.
Lemma num_number t : num_ok t -> number t.
Proof. intros [_ S]. specialize (S [] I). apply scanned_number in S as [_ S]. exact S. Qed.

Definition lead (need : bool) (d : nat) : bytes := if need then newline (S d) else [].
Definition deep (need : bool) (d : nat) : nat := if need then S d else d.
Lemma blank_lead need d : blank (lead need d).
Proof. destruct need; [apply blank_newline|constructor]. Qed.
Lemma indent_str raw : chars raw -> forall r d need, indent (x22 :: raw ++ x22 :: r) d need false = lead need d ++ x22 :: raw ++ x22 :: indent r (deep need d) false false.
Proof.
  intros C r d need. destruct need; cbn [indent]; change (json_space x22) with false; cbn [lead deep]; cbn match;
    change (Byte.eqb x22 x7d || Byte.eqb x22 x5d) with false; change (Byte.eqb x22 dquote) with true; cbn [andb negb]; cbn match; rewrite indent_chars by exact C; reflexivity.
Qed.
Definition indents (v : json) : Prop := json_ok v -> forall d, exists t, is_value t v /\
  forall need d0 r, d = deep need d0 -> indent (print v ++ r) d0 need false = lead need d0 ++ t ++ indent r d false false.
Lemma commas_cons a b l : commas (a :: b :: l) = a ++ x2c :: commas (b :: l).
Proof. reflexivity. Qed.
Lemma indent_comma r d : indent (x2c :: r) d false false = x2c :: newline d ++ indent r d false false.
Proof. reflexivity. Qed.
Lemma indent_colon r d : indent (x3a :: r) d false false = x3a :: x20 :: indent r d false false.
Proof. reflexivity. Qed.
Lemma indent_close c r d : In c [x7d; x5d] -> indent (c :: r) (S d) false false = newline d ++ c :: indent r d false false.
Proof. intros [<-|[<-|[]]]; destruct d; reflexivity. Qed.
Ltac flat := change (b_ ":") with [x3a]; change (b_ ",") with [x2c]; cbn [app]; rewrite <- ?app_assoc; cbn [app]; rewrite <- ?app_assoc; cbn [app]; rewrite <- ?app_assoc; cbn [app];
  rewrite <- ?app_assoc; cbn [app]; reflexivity.
Lemma indent_elements l : Forall indents l -> Forall json_ok l -> l <> [] -> forall d, exists t, elements t l /\
  forall need d0 r, S d = deep need d0 -> indent (commas (map print l) ++ x5d :: r) d0 need false = lead need d0 ++ t ++ x5d :: indent r d false false.
Proof.
  induction l as [|v l IH]; intros F K N d; [congruence|]. inversion F as [|? ? Fv Fl]; subst. inversion K as [|? ? Kv Kl]; subst.
  destruct (Fv Kv (S d)) as (t & V & E). destruct l as [|w l].
  - exists ([] ++ t ++ newline d). split; [constructor; auto using blank_nil, blank_newline|]. intros need d0 r D. cbn [map commas]. rewrite (E need d0 _ D).
    rewrite indent_close by (cbn; auto). cbn [app]. flat.
  - destruct (IH Fl Kl ltac:(discriminate) d) as (t' & V' & E'). exists ([] ++ t ++ [] ++ b_ "," ++ (newline (S d) ++ t')).
    split; [constructor; auto using blank_nil, elements_blank, blank_newline|]. intros need d0 r D. cbn [map]. rewrite commas_cons. rewrite <- app_assoc. rewrite (E need d0 _ D).
    cbn [app]. rewrite indent_comma. change (print w :: map print l) with (map print (w :: l)). rewrite (E' false (S d) r eq_refl). cbn [lead app]. flat.
Qed.
Lemma indent_members l : Forall (fun kv => indents (snd kv)) l -> Forall (fun kv => raw_ok (fst kv) /\ json_ok (snd kv)) l -> l <> [] -> forall d, exists t, members t l /\
  forall need d0 r, S d = deep need d0 -> indent (commas (map member l) ++ x7d :: r) d0 need false = lead need d0 ++ t ++ x7d :: indent r d false false.
Proof.
  induction l as [|[k v] l IH]; intros F K N d; [congruence|]. inversion F as [|? ? Fv Fl]; subst. inversion K as [|? ? [Kk Kv] Kl]; subst. cbn [fst snd] in *. apply raw_chars in Kk.
  destruct (Fv Kv (S d)) as (t & V & E). destruct l as [|w l].
  - exists ([] ++ x22 :: k ++ x22 :: [] ++ b_ ":" ++ [x20] ++ t ++ newline d). split; [constructor; auto using blank_nil, blank_newline, blank_space|].
    intros need d0 r D. cbn [map commas]. rewrite member_app. unfold dquote. rewrite indent_str by exact Kk. rewrite <- D. rewrite indent_colon. rewrite (E false (S d) _ eq_refl).
    rewrite indent_close by (cbn; auto). cbn [lead app]. flat.
  - destruct (IH Fl Kl ltac:(discriminate) d) as (t' & V' & E'). exists ([] ++ x22 :: k ++ x22 :: [] ++ b_ ":" ++ [x20] ++ t ++ [] ++ b_ "," ++ (newline (S d) ++ t')).
    split; [constructor; auto using blank_nil, members_blank, blank_newline, blank_space|]. intros need d0 r D. cbn [map]. rewrite commas_cons. rewrite <- app_assoc. rewrite member_app.
    unfold dquote. rewrite indent_str by exact Kk. rewrite <- D. rewrite indent_colon. rewrite (E false (S d) _ eq_refl).
    cbn [app]. rewrite indent_comma. change (member w :: map member l) with (map member (w :: l)). rewrite (E' false (S d) r eq_refl). cbn [lead app].
    flat.
Qed.
Lemma indent_open c s d need : In c [x7b; x5b] -> indent (c :: s) d need false = lead need d ++ c :: indent s (deep need d) true false.
Proof. intros [<-|[<-|[]]]; destruct need; reflexivity. Qed.
Lemma indent_value v : indents v.
Proof.
  induction v as [|b|t|raw|l IH|l IH] using json_ind'; intros K d.
  - exists (b_ "null"). split; [constructor|]. intros need d0 r ->. apply (indent_copy w_null); [reflexivity|discriminate].
  - exists (print (JBool b)). split; [destruct b; constructor|]. intros need d0 r ->. apply indent_copy; destruct b; (reflexivity || discriminate).
  - exists t. apply num_number in K. split; [constructor; exact K|]. intros need d0 r ->. apply indent_copy; apply number_copied; exact K.
  - exists (x22 :: raw ++ [x22]). apply raw_chars in K. split; [constructor; exact K|]. intros need d0 r ->. cbn [print]. unfold quoted, dquote.
    cbn [app]. rewrite <- ?app_assoc. cbn [app]. rewrite indent_str by exact K. reflexivity.
  - apply ok_arr in K. destruct l as [|v l].
    + exists (b_ "[" ++ [] ++ b_ "]"). split; [constructor; constructor|]. intros need d0 r ->. destruct need; reflexivity.
    + destruct (indent_elements (v :: l) IH K ltac:(discriminate) d) as (t & V & E). exists (b_ "[" ++ (newline (S d) ++ t) ++ b_ "]").
      split; [constructor; apply elements_blank; [apply blank_newline|exact V]|]. intros need d0 r ->. rewrite print_arr. cbn [app]. rewrite <- ?app_assoc. cbn [app].
      rewrite indent_open by (cbn; auto). rewrite (E true _ r eq_refl). cbn [lead]. rewrite <- ?app_assoc. reflexivity.
  - apply ok_obj in K. destruct l as [|v l].
    + exists (b_ "{" ++ [] ++ b_ "}"). split; [constructor; constructor|]. intros need d0 r ->. destruct need; reflexivity.
    + destruct (indent_members (v :: l) IH K ltac:(discriminate) d) as (t & V & E). exists (b_ "{" ++ (newline (S d) ++ t) ++ b_ "}").
      split; [constructor; apply members_blank; [apply blank_newline|exact V]|]. intros need d0 r ->. rewrite print_obj. cbn [app]. rewrite <- ?app_assoc. cbn [app].
      rewrite indent_open by (cbn; auto). rewrite (E true _ r eq_refl). cbn [lead]. rewrite <- ?app_assoc. reflexivity.
Qed.
Lemma indent_text v : json_ok v -> is_value (indent (print v) 0 false false) v.
Proof.
  intros K. destruct (indent_value v K 0) as (t & V & E). specialize (E false 0 [] eq_refl). rewrite app_nil_r in E. rewrite E. cbn [lead app indent]. rewrite app_nil_r. exact V.
Qed.

(** ** The text of a journal *)
Lemma ok_str s : json_ok (str s).
Proof. exact (raw_escape s). Qed.
Lemma ok_names names : forallb (fun n => forallb simple_char n) names = true -> Forall raw_ok names.
Proof. intros F. apply Forall_forall. intros n I. rewrite forallb_forall in F. apply raw_simple, F, I. Qed.
Lemma ok_members l : forallb (fun n => forallb simple_char n) (map fst l) = true -> Forall json_ok (map snd l) -> json_ok (JObj l).
Proof.
  intros N F. apply ok_obj. apply ok_names in N. apply Forall_forall. intros kv I. rewrite Forall_forall in N, F. split; [apply N|apply F]; apply in_map; exact I.
Qed.
Lemma ok_completed c : json_ok (completed_json c).
Proof.
  apply ok_obj. apply Forall_forall. intros kv I. apply in_map_iff in I as ([k l] & <- & _). cbn [fst snd]. split; [apply raw_escape|].
  apply ok_arr. apply Forall_forall. intros x J. apply in_map_iff in J as (iv & <- & _). apply ok_str.
Qed.
Lemma ok_conf c : json_ok (conf_json c).
Proof. apply ok_members; [reflexivity|]. cbn [map snd]. repeat constructor; try exact I. apply num_dec. apply num_dec. Qed.
Lemma ok_job f : json_ok (job_json f).
Proof.
  apply ok_members; [reflexivity|]. cbn [map snd]. repeat apply Forall_cons; try apply Forall_nil; try exact I; try apply ok_str; try apply ok_conf; try apply ok_completed; try apply num_dec.
  destruct (fj_cmd f) as [l|]; [|exact I]. apply ok_arr. apply Forall_forall. intros x J. apply in_map_iff in J as (s & <- & _). apply ok_str.
Qed.
Lemma ok_journal l : json_ok (journal_json l).
Proof.
  apply ok_members; [reflexivity|]. cbn [map snd]. constructor; [|constructor]. destruct l as [|f l]; [exact I|]. apply ok_arr. apply Forall_forall.
  intros x J. apply in_map_iff in J as (g & <- & _). apply ok_job.
Qed.
Lemma journal_value l : is_value (journal_text l) (journal_json l).
Proof. apply indent_text, ok_journal. Qed.
Lemma parse_journal l : parse (journal_text l) = Some (journal_json l).
Proof. apply parse_iff. exists [], (journal_text l), []. rewrite app_nil_r. repeat split; try apply blank_nil. apply journal_value. Qed.

(** ** Strict prefixes *)
Lemma members_end t1 l1 t2 l2 r1 r2 : members t1 l1 -> members t2 l2 -> t1 ++ x7d :: r1 = t2 ++ x7d :: r2 -> r1 = r2.
Proof.
  intros M1 M2 E. apply (proj2 (proj2 complete)) in M1 as (n1 & M1), M2 as (n2 & M2). specialize (M1 (n1 + n2) r1 ltac:(lia)). specialize (M2 (n1 + n2) r2 ltac:(lia)).
  rewrite E in M1. congruence.
Qed.
Lemma members_first t l r : members t l -> exists s, skip_space (t ++ r) = x22 :: s.
Proof.
  intros M. assert (H : exists p u, t = p ++ x22 :: u /\ blank p) by (destruct M; eexists p, _; (split; [reflexivity|auto])). destruct H as (p & u & -> & P).
  rewrite <- app_assoc. cbn [app]. rewrite skip_put by (try reflexivity; now apply blank_iff). eauto.
Qed.
Lemma object_prefix t l p q w : members t l -> x7b :: t ++ [x7d] = p ++ q -> is_text p w -> q = [].
Proof.
  intros M E (b & u & b2 & -> & B & V & B2).
  assert (b = []) as ->.
  { destruct b as [|c b]; [reflexivity|]. cbn [app] in E. injection E as <- _. inversion B as [|? ? C]; subst. exfalso. cbn in C. intuition discriminate. }
  destruct (value_head u w V) as (c & u' & Hu & _). rewrite Hu in E. cbn [app] in E. injection E as <- E.
  destruct V as [| | |s N|s C|b0 B0|t0 l0 E0|b0 B0|t0 l0 M0]; try discriminate Hu.
  - exfalso. destruct (num_value _ N) as (c & t' & -> & D). injection Hu as -> _. destruct D; discriminate.
  - exfalso. injection Hu as <-. destruct (members_first t l [x7d] M) as (s & S). rewrite E in S. rewrite <- ?app_assoc in S.
    rewrite skip_app in S by (now apply blank_iff). discriminate.
  - injection Hu as <-. rewrite <- ?app_assoc in E. cbn [app] in E. assert (H := members_end _ _ _ _ _ _ M M0 E). symmetry in H. apply app_eq_nil in H. tauto.
Qed.
Lemma journal_object l : exists t, members t [(b_ "Jobs", match l with [] => JNull | _ => JArr (map job_json l) end)] /\ journal_text l = x7b :: t ++ [x7d].
Proof.
  pose proof (journal_value l) as V. unfold journal_json in V. revert V. generalize (journal_text l). intros s V. inversion V as [| | | | | | | |t l0 M Hs Hw]; subst. exists t. split; [exact M|]. reflexivity.
Qed.
Theorem truncated l n : n < length (journal_text l) -> read_journal (firstn n (journal_text l)) = None.
Proof.
  intros L. unfold read_journal. destruct (parse (firstn n (journal_text l))) as [w|] eqn:P; [|reflexivity]. exfalso. apply parse_iff in P.
  destruct (journal_object l) as (t & M & E). assert (H : skipn n (journal_text l) = []).
  { apply (object_prefix t _ (firstn n (journal_text l)) _ w M); [|exact P]. rewrite <- E. symmetry. apply firstn_skipn. }
  apply (f_equal (@length _)) in H. rewrite skipn_length in H. revert H L. generalize (length (journal_text l)). intros m H L. cbn [length] in H. lia.
Qed.

(** ** The order of the keys *)
Lemma key_total a : forall b, key_leb a b = false -> key_leb b a = true.
Proof.
  induction a as [|x a IH]; intros [|y b]; cbn [key_leb]; try discriminate; try reflexivity.
  destruct (N.ltb_spec (Byte.to_N x) (Byte.to_N y)); [discriminate|]. destruct (N.ltb_spec (Byte.to_N y) (Byte.to_N x)); [reflexivity|]. apply IH.
Qed.
Lemma key_antisym a : forall b, key_leb a b = true -> key_leb b a = true -> a = b.
Proof.
  induction a as [|x a IH]; intros [|y b]; cbn [key_leb]; try discriminate; try reflexivity.
  destruct (N.ltb_spec (Byte.to_N x) (Byte.to_N y)) as [L|L]; destruct (N.ltb_spec (Byte.to_N y) (Byte.to_N x)) as [M|M]; try lia; try discriminate.
  intros A B. rewrite (byte_N_inj x y) by lia. now rewrite (IH b A B).
Qed.
Lemma key_trans a : forall b c, key_leb a b = true -> key_leb b c = true -> key_leb a c = true.
Proof.
  induction a as [|x a IH]; intros [|y b] [|z c]; cbn [key_leb]; try discriminate; try reflexivity.
  destruct (N.ltb_spec (Byte.to_N x) (Byte.to_N y)) as [L|L]; destruct (N.ltb_spec (Byte.to_N y) (Byte.to_N x)) as [M|M]; try lia; try discriminate;
  destruct (N.ltb_spec (Byte.to_N y) (Byte.to_N z)) as [L2|L2]; destruct (N.ltb_spec (Byte.to_N z) (Byte.to_N y)) as [M2|M2]; try lia; try discriminate;
  destruct (N.ltb_spec (Byte.to_N x) (Byte.to_N z)) as [L3|L3]; destruct (N.ltb_spec (Byte.to_N z) (Byte.to_N x)) as [M3|M3]; try lia; try reflexivity; try apply IH.
Qed.
Lemma insert_perm {V} (kv : bytes * V) l : Permutation (insert_key kv l) (kv :: l).
Proof.
  induction l as [|x l IH]; [reflexivity|]. cbn [insert_key]. destruct (key_leb (fst kv) (fst x)); [reflexivity|]. rewrite IH. apply perm_swap.
Qed.
Lemma sort_perm {V} (l : list (bytes * V)) : Permutation (sort_keys l) l.
Proof. induction l as [|x l IH]; [reflexivity|]. cbn [sort_keys fold_right]. rewrite insert_perm. now constructor. Qed.
Lemma insert_swap {V} (a b : bytes * V) l : fst a <> fst b -> insert_key a (insert_key b l) = insert_key b (insert_key a l).
Proof.
  intros N. induction l as [|x l IH]; cbn [insert_key].
  - destruct (key_leb (fst a) (fst b)) eqn:E1, (key_leb (fst b) (fst a)) eqn:E2; try reflexivity.
    + exfalso. apply N. now apply key_antisym.
    + apply key_total in E1. congruence.
  - destruct (key_leb (fst b) (fst x)) eqn:Eb, (key_leb (fst a) (fst x)) eqn:Ea; cbn [insert_key]; rewrite ?Ea, ?Eb.
    + destruct (key_leb (fst a) (fst b)) eqn:E1, (key_leb (fst b) (fst a)) eqn:E2; try reflexivity.
      * exfalso. apply N. now apply key_antisym.
      * apply key_total in E1. congruence.
    + destruct (key_leb (fst a) (fst b)) eqn:E1; [|reflexivity]. rewrite (key_trans _ _ _ E1 Eb) in Ea. discriminate.
    + destruct (key_leb (fst b) (fst a)) eqn:E2; [|reflexivity]. rewrite (key_trans _ _ _ E2 Ea) in Eb. discriminate.
    + now rewrite IH.
Qed.
Lemma sort_unique {V} (l1 l2 : list (bytes * V)) : NoDup (map fst l1) -> Permutation l1 l2 -> sort_keys l1 = sort_keys l2.
Proof.
  intros D P. induction P as [|x l1 l2 P IH|x y l|l1 l2 l3 P1 IH1 P2 IH2]; cbn [sort_keys fold_right].
  - reflexivity.
  - inversion D; subst. unfold sort_keys in IH. now rewrite IH.
  - inversion D as [|? ? N _]; subst. apply insert_swap. intros E. apply N. left. symmetry. exact E.
  - rewrite IH1 by exact D. apply IH2. apply (Permutation_NoDup (Permutation_map fst P1)). exact D.
Qed.

(** ** Reading back *)
Lemma digit_ascii c : is_digit c = true -> ascii c = true.
Proof. destruct c; try discriminate; reflexivity. Qed.
Lemma repair_interval iv : repair (show_interval iv) = show_interval iv.
Proof.
  apply repair_valid, ascii_valid. unfold show_interval. rewrite forallb_app. cbn [forallb].
  assert (H : forall n, forallb ascii (dec_N n) = true).
  { intros n. pose proof (dec_N_digits n) as D. rewrite forallb_forall in *. intros c I. apply digit_ascii, D, I. }
  rewrite !H. reflexivity.
Qed.
Lemma set_fresh {V} k (v : V) m : ~ In k (map fst m) -> set_key k v m = m ++ [(k, v)].
Proof.
  induction m as [|[k' v'] m IH]; intros N; [reflexivity|]. cbn [set_key app]. destruct (beqb k k') eqn:E; [apply beqb_eq in E; subst; exfalso; apply N; left; reflexivity|].
  rewrite IH; [reflexivity|]. intros I. apply N. right. exact I.
Qed.
Lemma read_str old s : read_string old (str s) = Some (repair s).
Proof. apply unquote_escape. Qed.
Lemma read_strs l : read_elements read_string [] [] (map str l) = Some (map repair l).
Proof. apply read_elements_ok. induction l as [|x l IH]; constructor; [apply read_str|exact IH]. Qed.
Definition shown (kv : bytes * list interval) : bytes * list bytes := (fst kv, map show_interval (snd kv)).
Definition shown_json (kv : bytes * list interval) : bytes * json := (escape (fst kv), JArr (map (fun iv => str (show_interval iv)) (snd kv))).
Lemma read_map_ok c : forall m, Forall (fun kv => valid_utf8 (fst kv)) c -> NoDup (map fst m ++ map fst c) -> read_map (map shown_json c) m = Some (m ++ map shown c).
Proof.
  induction c as [|[k l] c IH]; intros m V D; cbn [map read_map shown_json fst snd]; [now rewrite app_nil_r|]. inversion V as [|? ? Vk Vc]; subst. cbn [fst] in Vk.
  rewrite unquote_escape, (repair_valid k Vk). cbn [obind read_list]. rewrite <- (map_map show_interval str), read_strs. cbn [obind]. rewrite map_map.
  rewrite (map_ext _ show_interval) by (intros iv; apply repair_interval).
  cbn [map] in D. rewrite set_fresh by (intros I; apply NoDup_remove_2 in D; apply D, in_or_app; auto). rewrite IH.
  - rewrite <- app_assoc. reflexivity.
  - exact Vc.
  - rewrite map_app, <- app_assoc. exact D.
Qed.
Lemma normalize_good c : good_completed c -> normalize_completed c = Some c.
Proof.
  intros G. pose proof (decode_encode_job (mk_job false false 0 c) G) as E. unfold decode_job, encode_job in E. cbn [d_completed d_coalesced d_smt d_ctsize j_completed j_coalesced j_smt j_ctsize] in E.
  rewrite decode_encode in E by (intros k l Hkl; apply (G k l Hkl)). destruct (normalize_completed c) as [c'|]; [|discriminate]. injection E as <-. reflexivity.
Qed.
Definition good_job (f : full_job) : Prop :=
  int64 (cf_batch (fj_conf f)) = true /\ int64 (j_ctsize (fj_job f)) = true /\ good_completed (j_completed (fj_job f)) /\
  NoDup (map fst (j_completed (fj_job f))) /\ Forall valid_utf8 (map fst (j_completed (fj_job f))).
Definition reread (f : full_job) : full_job :=
  mk_full (repair (fj_cwd f)) (option_map (map repair) (fj_cmd f)) (fj_conf f) (repair (fj_start f)) (repair (fj_end f))
    (mk_job (j_coalesced (fj_job f)) (j_smt (fj_job f)) (j_ctsize (fj_job f)) (sort_keys (j_completed (fj_job f)))).
Lemma good_perm c c' : Permutation c c' -> good_completed c -> good_completed c'.
Proof. intros P G k l I. apply G. apply (Permutation_in _ (Permutation_sym P)), I. Qed.
Lemma read_completed_ok old c : good_completed c -> NoDup (map fst c) -> Forall valid_utf8 (map fst c) -> read_completed old (completed_json c) = Some (sort_keys c).
Proof.
  intros G D V. unfold completed_json, read_completed. pose proof (sort_perm c) as P. change (fun kv : bytes * list interval => _) with shown_json. rewrite read_map_ok.
  - cbn [obind app]. apply decode_encode. intros k l I. apply (G k l). apply (Permutation_in _ P), I.
  - rewrite Forall_map in V. apply Forall_forall. intros kv I. rewrite Forall_forall in V. apply V, (Permutation_in _ P), I.
  - cbn [map app]. apply (Permutation_NoDup (Permutation_map fst (Permutation_sym P))). exact D.
Qed.
Lemma reads_step {S} (t : table S) name f v l s s1 s2 : unquote name = Some name -> entry_of name t = Some f -> f v s = Some s1 -> reads t l s1 s2 -> reads t ((name, v) :: l) s s2.
Proof. intros U E F R. unfold reads. cbn [read_members]. rewrite U. cbn [obind]. rewrite E, F. exact R. Qed.
Lemma read_num old z : int64 z = true -> read_int old (JNum (dec_Z z)) = Some z.
Proof. intros I. cbn [read_int]. rewrite int_of_dec. cbn [obind]. now rewrite I. Qed.
Lemma read_conf c : int64 (cf_batch c) = true -> read_struct conf_table zero_conf (conf_json c) = Some c.
Proof.
  intros I. cbn [conf_json read_struct]. destruct c as [c1 c2 c3 c4 c5 c6]. cbn [cf_ingest cf_coalesce cf_smt cf_ctsize cf_batch cf_csv] in *.
  do 4 (eapply reads_step; [reflexivity|reflexivity|reflexivity|]). eapply reads_step; [reflexivity|reflexivity|cbv beta; rewrite read_num by exact I; reflexivity|].
  eapply reads_step; [reflexivity|reflexivity|reflexivity|]. reflexivity.
Qed.
Lemma read_cmd_ok (o : option (list bytes)) : read_cmd None (match o with None => JNull | Some l => JArr (map str l) end) = Some (option_map (map repair) o).
Proof. destruct o as [l|]; [|reflexivity]. cbn [read_cmd]. rewrite read_strs. reflexivity. Qed.
Lemma read_job f : good_job f -> read_struct job_table zero_job (job_json f) = Some (reread f).
Proof.
  intros (I1 & I2 & G & D & V). cbn [job_json read_struct].
  eapply reads_step; [reflexivity|reflexivity|cbv beta; rewrite read_str; reflexivity|].
  eapply reads_step; [reflexivity|reflexivity|cbv beta; cbn [fj_cmd zero_job]; rewrite read_cmd_ok; reflexivity|].
  eapply reads_step; [reflexivity|reflexivity|cbv beta; cbn [fj_conf zero_job]; rewrite read_conf by exact I1; reflexivity|].
  eapply reads_step; [reflexivity|reflexivity|cbv beta; rewrite read_str; reflexivity|].
  eapply reads_step; [reflexivity|reflexivity|cbv beta; rewrite read_str; reflexivity|].
  eapply reads_step; [reflexivity|reflexivity|reflexivity|].
  eapply reads_step; [reflexivity|reflexivity|reflexivity|].
  eapply reads_step; [reflexivity|reflexivity|cbv beta; rewrite read_num by exact I2; reflexivity|].
  eapply reads_step; [reflexivity|reflexivity|cbv beta; rewrite read_completed_ok by assumption; reflexivity|].
  reflexivity.
Qed.
Lemma all_some_ok {A B} (f : A -> option B) (g : A -> B) l : Forall (fun x => f x = Some (g x)) l -> JsonModel.all_some f l = Some (map g l).
Proof. induction 1 as [|x l E _ IH]; [reflexivity|]. cbn [JsonModel.all_some map]. rewrite E. cbn [obind]. rewrite IH. reflexivity. Qed.
Theorem read_written l : Forall good_job l -> read_journal (journal_text l) = Some (map reread l).
Proof.
  intros G. unfold read_journal. rewrite parse_journal. cbn [obind journal_json read_struct].
  assert (E : read_list (read_struct job_table) zero_job [] (match l with [] => JNull | _ => JArr (map job_json l) end) = Some (map reread l)).
  { destruct l as [|f l]; [reflexivity|]. cbn [read_list]. apply read_elements_ok. clear -G. induction G as [|g k Hg _ IH]; constructor; [now apply read_job|exact IH]. }
  assert (R : reads journal_table [(b_ "Jobs", match l with [] => JNull | _ => JArr (map job_json l) end)] [] (map reread l)).
  { eapply reads_step; [reflexivity|reflexivity|cbv beta; rewrite E; reflexivity|reflexivity]. }
  unfold reads in R. rewrite R. cbn [obind]. clear R E.
  rewrite (all_some_ok normalize_job (fun f => f)); [now rewrite map_id|]. apply Forall_map. revert G. apply Forall_impl. intros f (_ & _ & Gc & _).
  unfold normalize_job, reread. cbn [fj_job j_completed]. rewrite normalize_good by (apply (good_perm (j_completed (fj_job f))); [symmetry; apply sort_perm|exact Gc]). reflexivity.
Qed.

(** ** The text depends on the content of the maps only *)
Definition same_content (f g : full_job) : Prop :=
  fj_cwd f = fj_cwd g /\ fj_cmd f = fj_cmd g /\ fj_conf f = fj_conf g /\ fj_start f = fj_start g /\ fj_end f = fj_end g /\
  j_coalesced (fj_job f) = j_coalesced (fj_job g) /\ j_smt (fj_job f) = j_smt (fj_job g) /\ j_ctsize (fj_job f) = j_ctsize (fj_job g) /\
  NoDup (map fst (j_completed (fj_job f))) /\ Permutation (j_completed (fj_job f)) (j_completed (fj_job g)).
Theorem text_of_content l1 l2 : Forall2 same_content l1 l2 -> journal_text l1 = journal_text l2.
Proof.
  intros F. unfold journal_text. f_equal. f_equal. unfold journal_json. assert (E : map job_json l1 = map job_json l2).
  { clear -F. induction F as [|f g k1 k2 S _ IH]; [reflexivity|]. cbn [map]. rewrite IH. f_equal. destruct S as (E1 & E2 & E3 & E4 & E5 & E6 & E7 & E8 & D & P).
    unfold job_json. rewrite E1, E2, E3, E4, E5, E6, E7, E8. unfold completed_json. rewrite (sort_unique _ _ D P). reflexivity. }
  destruct F as [|f g k1 k2 S F]; [reflexivity|]. rewrite E. reflexivity.
Qed.

(** ** What every accepted text yields *)
Lemma in_remove_at y i l : In y l -> y = nth i l iv0 \/ In y (remove_at i l).
Proof.
  unfold remove_at. revert i. induction l as [|x l IH]; intros i I; [destruct I|]. destruct i as [|i]; cbn [nth firstn skipn app]; destruct I as [->|I]; auto.
  - right. left. reflexivity.
  - destruct (IH i I) as [E|E]; [left; exact E|right; right; exact E].
Qed.
Lemma remove_at_in y i l : In y (remove_at i l) -> In y l.
Proof.
  unfold remove_at. intros I. apply in_app_or in I as [I|I]; [rewrite <- (firstn_skipn i l)|rewrite <- (firstn_skipn (S i) l)]; apply in_or_app; auto.
Qed.
Lemma in_around (y x : interval) i l : In y (firstn i l ++ x :: skipn i l) <-> y = x \/ In y l.
Proof.
  rewrite in_app_iff. cbn [In]. rewrite <- (firstn_skipn i l) at 3. rewrite in_app_iff. intuition.
Qed.
Lemma bsearch_le fuel l t : forall i j, i <= j -> bsearch fuel l t i j <= j.
Proof.
  induction fuel as [|f IH]; intros i j L; cbn [bsearch]; [exact L|]. destruct (Nat.ltb_spec i j) as [Lt|Ge]; [|exact L].
  assert (H : i <= (i + j) / 2 < j) by (split; [apply Nat.div_le_lower_bound; lia|apply Nat.div_lt_upper_bound; lia]).
  destruct (N.ltb _ t); [apply IH; lia|]. etransitivity; [apply IH; lia|lia].
Qed.
(** the intervals of the result come from the given ones by merging, and no end is lost *)
Lemma absorb_inv (P : interval -> Prop) (Hm : forall a b, P a -> P b -> P (merge_iv a b)) fuel : forall idx iv l iv' l', absorb fuel idx iv l = (iv', l') ->
  P iv -> Forall P l -> P iv' /\ Forall P l' /\ forall e, (exists y, In y (iv :: l) /\ (e <= iv_e y)%N) -> exists y, In y (iv' :: l') /\ (e <= iv_e y)%N.
Proof.
  induction fuel as [|f IH]; intros idx iv l iv' l' E Pi Pl; cbn [absorb] in E; [injection E as <- <-; auto|].
  destruct ((idx <? length l) && can_merge iv (nth idx l iv0)) eqn:C; [|injection E as <- <-; auto].
  apply andb_prop in C as [C _]. apply Nat.ltb_lt in C. assert (Hn : In (nth idx l iv0) l) by (apply nth_In; exact C). rewrite Forall_forall in Pl.
  apply IH in E as (A & B & T).
  - split; [exact A|]. split; [exact B|]. intros e (y & I & L). apply T. destruct I as [<-|I].
    + exists (merge_iv iv (nth idx l iv0)). split; [left; reflexivity|]. cbn [merge_iv iv_e]. lia.
    + destruct (in_remove_at y idx l I) as [->|I']; [|exists y; split; [right; exact I'|exact L]]. exists (merge_iv iv (nth idx l iv0)). split; [left; reflexivity|]. cbn [merge_iv iv_e]. lia.
  - apply Hm; auto.
  - apply Forall_forall. intros y I. apply Pl. apply (remove_at_in y idx l I).
Qed.
Lemma append_inv (P : interval -> Prop) (Hm : forall a b, P a -> P b -> P (merge_iv a b)) l iv : P iv -> Forall P l ->
  Forall P (append_interval l iv) /\ forall e, (exists y, In y (iv :: l) /\ (e <= iv_e y)%N) -> exists y, In y (append_interval l iv) /\ (e <= iv_e y)%N.
Proof.
  intros Pi Pl. unfold append_interval. set (idx := fst (search l (iv_s iv))).
  assert (Core : forall i x m, P x -> Forall P m -> (forall e, (exists y, In y (iv :: l) /\ (e <= iv_e y)%N) -> exists y, In y (x :: m) /\ (e <= iv_e y)%N) ->
    let r := (let (x', m') := absorb (length m) i x m in firstn i m' ++ x' :: skipn i m') in
    Forall P r /\ forall e, (exists y, In y (iv :: l) /\ (e <= iv_e y)%N) -> exists y, In y r /\ (e <= iv_e y)%N).
  { intros i x m Px Pm T. destruct (absorb (length m) i x m) as [x' m'] eqn:A. apply (absorb_inv P Hm) in A as (A1 & A2 & A3); auto. cbv zeta. split.
    - apply Forall_forall. intros y I. apply in_around in I as [->|I]; [exact A1|]. rewrite Forall_forall in A2. auto.
    - intros e H. apply T, A3 in H as (y & I & L). exists y. split; [|exact L]. apply in_around. cbn [In] in I. intuition. }
  destruct ((0 <? idx) && can_merge (nth (idx - 1) l iv0) iv) eqn:C.
  - destruct (Nat.lt_ge_cases (idx - 1) (length l)) as [L|L].
    + rewrite Forall_forall in Pl. assert (Hn : In (nth (idx - 1) l iv0) l) by (apply nth_In; exact L). apply Core.
      * apply Hm; auto.
      * apply Forall_forall. intros y I. apply Pl. apply (remove_at_in y (idx - 1) l I).
      * intros e (y & I & Le). destruct I as [<-|I]; [eexists; split; [left; reflexivity|cbn [merge_iv iv_e]; lia]|].
        destruct (in_remove_at y (idx - 1) l I) as [->|I']; [eexists; split; [left; reflexivity|cbn [merge_iv iv_e]; lia]|exists y; split; [right; exact I'|exact Le]].
    + exfalso. assert (idx <= length l).
      { unfold idx, search. cbn [fst]. pose proof (bsearch_le (length l) l (iv_s iv) 0 (length l)). lia. }
      apply andb_prop in C as [C _]. apply Nat.ltb_lt in C. lia.
  - apply Core; auto.
Qed.
Lemma merge_uint a b : in_uint a -> in_uint b -> in_uint (merge_iv a b).
Proof. unfold in_uint. cbn [merge_iv iv_s iv_e]. lia. Qed.
Lemma fold_uint l : forall p, Forall in_uint p -> Forall in_uint l -> Forall in_uint (fold_left append_interval l p) /\
  forall e, (exists y, In y (l ++ p) /\ (e <= iv_e y)%N) -> exists y, In y (fold_left append_interval l p) /\ (e <= iv_e y)%N.
Proof.
  induction l as [|iv l IH]; intros p Hp Hl; cbn [fold_left app]; [auto|]. inversion Hl as [|? ? Hi Hl']; subst.
  destruct (append_inv in_uint merge_uint p iv Hi Hp) as [A T]. destruct (IH _ A Hl') as [B U]. split; [exact B|]. intros e (y & I & L). apply U.
  destruct I as [<-|I]; [|apply in_app_or in I as [I|I]].
  - destruct (T e) as (z & Z & Lz); [exists iv; split; [left; reflexivity|exact L]|]. exists z. split; [apply in_or_app; auto|exact Lz].
  - exists y. split; [apply in_or_app; auto|exact L].
  - destruct (T e) as (z & Z & Lz); [exists y; split; [right; exact I|exact L]|]. exists z. split; [apply in_or_app; auto|exact Lz].
Qed.
Lemma fold_canonical l : forall p, canonical p -> Forall below_max p -> Forall in_uint p -> Forall in_uint l ->
  Forall below_max (fold_left append_interval l p) -> canonical (fold_left append_interval l p).
Proof.
  induction l as [|iv l IH]; intros p C B Hp Hl T; cbn [fold_left] in *; [exact C|]. inversion Hl as [|? ? Hi Hl']; subst.
  destruct (append_inv in_uint merge_uint p iv Hi Hp) as [A U]. assert (Bi : below_max iv).
  { unfold below_max. destruct (N.lt_ge_cases (iv_e iv + 1) (2 ^ 64)) as [L|L]; [exact L|exfalso].
    destruct (fold_uint l _ A Hl') as [_ V]. destruct (U (iv_e iv)) as (z & Z & Lz); [exists iv; split; [left; reflexivity|lia]|].
    destruct (V (iv_e iv)) as (y & Y & Ly); [exists z; split; [apply in_or_app; auto|exact Lz]|]. rewrite Forall_forall in T. specialize (T y Y). unfold below_max in T. lia. }
  destruct (append_interval_ok p iv C B ltac:(unfold in_uint in Hi; lia) Bi) as (C1 & B1 & _). apply IH; auto.
Qed.
Definition fine_completed (c : completed) : Prop := NoDup (map fst c) /\ Forall (fun kv => Forall in_uint (snd kv)) c /\ Forall valid_utf8 (map fst c).
Definition valid_strings (f : full_job) : Prop :=
  valid_utf8 (fj_cwd f) /\ Forall valid_utf8 (match fj_cmd f with None => [] | Some l => l end) /\ valid_utf8 (fj_start f) /\ valid_utf8 (fj_end f).
Definition fine_job (f : full_job) : Prop :=
  int64 (cf_batch (fj_conf f)) = true /\ int64 (j_ctsize (fj_job f)) = true /\ fine_completed (j_completed (fj_job f)) /\ valid_strings f.
Lemma keeps_members {S} (P : S -> Prop) (t : table S) : Forall (fun e => forall v s s', P s -> snd e v s = Some s' -> P s') t ->
  forall l s s', P s -> read_members t l s = Some s' -> P s'.
Proof.
  intros F. assert (G : forall name f, entry_of name t = Some f -> forall v s s', P s -> f v s = Some s' -> P s').
  { intros name f. induction F as [|[n g] t K _ IH]; cbn [entry_of]; [discriminate|]. destruct (beqb (fold_name n) (fold_name name)); [intros [= <-]; exact K|exact IH]. }
  induction l as [|[k v] l IH]; intros s s' H E; cbn [read_members] in E; [injection E as <-; exact H|].
  destruct (unquote k) as [name|]; [|discriminate]. cbn [obind] in E. destruct (entry_of name t) as [f|] eqn:N.
  - destruct (f v s) as [s1|] eqn:V; [|discriminate]. cbn [obind] in E. apply (IH s1 s'); [apply (G name f N v s s1 H V)|exact E].
  - cbn [obind] in E. apply (IH s s' H E).
Qed.
Lemma keeps_struct {S} (P : S -> Prop) (t : table S) : Forall (fun e => forall v s s', P s -> snd e v s = Some s' -> P s') t ->
  forall v s s', P s -> read_struct t s v = Some s' -> P s'.
Proof. intros F v s s' H E. destruct v; cbn [read_struct] in E; try discriminate; [injection E as <-; exact H|]. apply (keeps_members P t F l s s' H E). Qed.
Lemma keeps_elements {A} (P : A -> Prop) (read : A -> json -> option A) zero : P zero -> (forall v s s', P s -> read s v = Some s' -> P s') ->
  forall l old r, Forall P old -> read_elements read zero old l = Some r -> Forall P r.
Proof.
  intros Z K. induction l as [|v l IH]; intros old r O E; cbn [read_elements] in E; [injection E as <-; constructor|].
  destruct (read (hd zero old) v) as [x|] eqn:R; [|discriminate]. cbn [obind] in E. destruct (read_elements read zero (tl old) l) as [r'|] eqn:R'; [|discriminate].
  injection E as <-. constructor.
  - apply (K v (hd zero old) x); [destruct O; assumption|exact R].
  - apply (IH (tl old)); [destruct O; [constructor|assumption]|exact R'].
Qed.
Lemma set_keys {V} k (v : V) m : NoDup (map fst m) -> NoDup (map fst (set_key k v m)).
Proof.
  intros D. assert (H : forall x, In x (map fst (set_key k v m)) -> x = k \/ In x (map fst m)).
  { intros x I. apply in_map_iff in I as (kv & <- & I). apply In_set_key in I as [->|I]; [left; reflexivity|right; apply in_map, I]. }
  induction m as [|[k' v'] m IH]; cbn [set_key map fst]; [repeat constructor; intros []|]. inversion D as [|? ? N D']; subst. destruct (beqb k k') eqn:E.
  - apply beqb_eq in E as ->. cbn [map fst]. constructor; assumption.
  - cbn [map fst]. constructor.
    + intros I. apply in_map_iff in I as (kv & E' & I). apply In_set_key in I as [->|I]; [cbn in E'; subst; rewrite beqb_refl in E; discriminate|]. apply N. rewrite <- E'. apply in_map, I.
    + apply IH; [exact D'|]. intros x I. apply in_map_iff in I as (kv & <- & I). apply In_set_key in I as [->|I]; [left; reflexivity|right; apply in_map, I].
Qed.
Lemma read_map_keys l : forall m r, NoDup (map fst m) -> Forall valid_utf8 (map fst m) -> read_map l m = Some r -> NoDup (map fst r) /\ Forall valid_utf8 (map fst r).
Proof.
  induction l as [|[k v] l IH]; intros m r D V E; cbn [read_map] in E; [injection E as <-; auto|]. destruct (unquote k) as [name|] eqn:U; [|discriminate]. cbn [obind] in E.
  destruct (read_list read_string [] [] v) as [x|]; [|discriminate]. cbn [obind] in E. apply (IH _ r) in E; [exact E|apply set_keys, D|].
  apply Forall_forall. intros n I. apply in_map_iff in I as (kv & <- & I). rewrite Forall_forall in V.
  apply In_set_key in I as [->|I]; [exact (unquote_valid k name U)|apply V, in_map, I].
Qed.
Lemma read_string_valid old v x : valid_utf8 old -> read_string old v = Some x -> valid_utf8 x.
Proof. intros O E. destruct v; cbn [read_string] in E; try discriminate; [injection E as <-; exact O|]. apply (unquote_valid _ _ E). Qed.
Lemma valid_nil : valid_utf8 [].
Proof. intros c []. Qed.
Lemma read_cmd_valid old v x : Forall valid_utf8 (match old with None => [] | Some l => l end) -> read_cmd old v = Some x -> Forall valid_utf8 (match x with None => [] | Some l => l end).
Proof.
  intros O E. destruct v; cbn [read_cmd] in E; try discriminate; [injection E as <-; constructor|].
  destruct (read_elements read_string [] (match old with None => [] | Some l => l end) l) as [r|] eqn:R; [|discriminate]. injection E as <-.
  apply (keeps_elements valid_utf8 read_string [] valid_nil (fun v s s' => read_string_valid s v s') l _ _ O R).
Qed.
Lemma parse_uint s iv : parse_interval s = Some iv -> in_uint iv.
Proof. intros E. apply parse_interval_iff in E as (a & b & _ & _ & _ & _ & _ & _ & Hu). exact Hu. Qed.
Lemma decoded_fine m c : decode_completed m = Some c -> map fst c = map fst m /\ Forall (fun kv => Forall in_uint (snd kv)) c.
Proof.
  unfold decode_completed. intros E. apply all_some_map in E. induction E as [|[k l] [k' l'] m c H _ [IH1 IH2]]; [split; [reflexivity|constructor]|]. cbn [fst snd] in H.
  destruct (JournalModel.all_some (map parse_interval l)) as [ivs|] eqn:A; [|discriminate]. injection H as <- <-. split; [cbn [map fst]; now rewrite IH1|]. constructor; [|exact IH2]. cbn [snd].
  apply all_some_map in A. clear -A. induction A as [|s iv l ivs H _ IH]; constructor; [apply (parse_uint s), H|exact IH].
Qed.
Lemma read_completed_fine old v c : read_completed old v = Some c -> fine_completed c.
Proof.
  unfold read_completed. destruct v; try discriminate; [intros [= <-]; repeat split; constructor|]. destruct (read_map l []) as [m|] eqn:M; [|discriminate]. cbn [obind]. intros E.
  apply decoded_fine in E as [E F]. apply read_map_keys in M as [M1 M2]; [|constructor|constructor]. unfold fine_completed. rewrite E. auto.
Qed.
Lemma read_int_64 old v z : int64 old = true -> read_int old v = Some z -> int64 z = true.
Proof.
  intros O E. destruct v; cbn [read_int] in E; try discriminate; [injection E as <-; exact O|]. destruct (int_of text) as [y|]; [|discriminate]. cbn [obind] in E.
  destruct (int64 y) eqn:I; [injection E as <-; exact I|discriminate].
Qed.
Lemma conf_keeps : Forall (fun e => forall v s s', int64 (cf_batch s) = true -> snd e v s = Some s' -> int64 (cf_batch s') = true) conf_table.
Proof.
  unfold conf_table. repeat apply Forall_cons; try apply Forall_nil; unfold entry; cbn [snd]; intros v s s' H E;
    match type of E with option_map _ ?r = _ => destruct r as [x|] eqn:R; [|discriminate] end; injection E as <-; cbn [cf_batch]; try exact H. apply (read_int_64 _ _ _ H R).
Qed.
Lemma job_keeps : Forall (fun e => forall v s s', fine_job s -> snd e v s = Some s' -> fine_job s') job_table.
Proof.
  unfold job_table. repeat apply Forall_cons; try apply Forall_nil; unfold entry; cbn [snd]; intros v s s' H E;
    match type of E with option_map _ ?r = _ => destruct r as [x|] eqn:R; [|discriminate] end; injection E as <-; destruct H as (H1 & H2 & H3 & H4 & H5 & H6 & H7);
    unfold fine_job, valid_strings, put_job; cbn [fj_conf fj_job fj_cwd fj_cmd fj_start fj_end j_ctsize j_completed]; (split; [|split; [|split; [|split; [|split; [|split]]]]]); try assumption.
  - apply (read_string_valid _ _ _ H4 R).
  - apply (read_cmd_valid _ _ _ H5 R).
  - apply (keeps_struct _ conf_table conf_keeps v _ _ H1 R).
  - apply (read_string_valid _ _ _ H6 R).
  - apply (read_string_valid _ _ _ H7 R).
  - apply (read_int_64 _ _ _ H2 R).
  - apply (read_completed_fine _ _ _ R).
Qed.
Lemma journal_keeps : Forall (fun e => forall v s s', Forall fine_job s -> snd e v s = Some s' -> Forall fine_job s') journal_table.
Proof.
  unfold journal_table. constructor; [|constructor]. unfold entry. cbn [snd]. intros v s s' H E. destruct (read_list (read_struct job_table) zero_job s v) as [x|] eqn:R; [|discriminate].
  injection E as <-. destruct v; cbn [read_list] in R; try discriminate; [injection R as <-; constructor|].
  apply (keeps_elements fine_job (read_struct job_table) zero_job) with (old := s) (l := l); auto.
  - repeat split; try constructor; intros c [].
  - apply keeps_struct. apply job_keeps.
Qed.
Definition accepted_job (f : full_job) : Prop :=
  int64 (cf_batch (fj_conf f)) = true /\ int64 (j_ctsize (fj_job f)) = true /\ NoDup (map fst (j_completed (fj_job f))) /\
  Forall valid_utf8 (map fst (j_completed (fj_job f))) /\ valid_strings f /\
  forall k l, In (k, l) (j_completed (fj_job f)) -> k <> [] /\ Forall in_uint l /\ (Forall below_max l -> canonical l).
Lemma normalized c c' : fine_completed c -> normalize_completed c = Some c' ->
  map fst c' = map fst c /\ forall k l, In (k, l) c' -> k <> [] /\ Forall in_uint l /\ (Forall below_max l -> canonical l).
Proof.
  intros (_ & F & _) E. unfold normalize_completed in E. apply all_some_map in E. induction E as [|[k l] [k' l'] c c' H _ IH]; [split; [reflexivity|intros ? ? []]|].
  inversion F as [|? ? Fl Fc]; subst. cbn [fst snd] in *. destruct (IH Fc) as [IH1 IH2]. destruct k as [|b k]; [discriminate|].
  destruct (forallb (fun iv => (iv_s iv <=? iv_e iv)%N) l); [|discriminate]. injection H as <- <-. split; [cbn [map fst]; now rewrite IH1|].
  intros k0 l0 [[= <- <-]|I]; [|apply IH2, I]. split; [discriminate|]. destruct (fold_uint l [] ltac:(constructor) Fl) as [U _]. split; [exact U|].
  intros B. apply (fold_canonical l []); auto. split; constructor.
Qed.
Theorem accepted s l : read_journal s = Some l -> Forall accepted_job l.
Proof.
  unfold read_journal. destruct (parse s) as [v|]; [|discriminate]. cbn [obind]. destruct (read_struct journal_table [] v) as [l0|] eqn:R; [|discriminate]. cbn [obind].
  apply (keeps_struct (Forall fine_job) journal_table journal_keeps) in R; [|constructor]. revert l. induction R as [|f l0 (F1 & F2 & F3 & F4) _ IH]; intros l E; cbn [JsonModel.all_some] in E.
  - injection E as <-. constructor.
  - destruct (normalize_job f) as [g|] eqn:N; [|discriminate]. cbn [obind] in E. destruct (JsonModel.all_some normalize_job l0) as [r|]; [|discriminate]. injection E as <-.
    constructor; [|apply IH; reflexivity]. unfold normalize_job in N. destruct (normalize_completed (j_completed (fj_job f))) as [c|] eqn:C; [|discriminate]. injection N as <-.
    destruct (normalized _ _ F3 C) as [K G]. unfold accepted_job, valid_strings, put_job. cbn [fj_conf fj_job fj_cwd fj_cmd fj_start fj_end j_ctsize j_completed]. rewrite K. destruct F3 as (F3 & _ & F5). auto 8.
Qed.

Theorem stable s l : read_journal s = Some l -> Forall (fun f => Forall (fun kv => Forall below_max (snd kv)) (j_completed (fj_job f))) l ->
  exists l', read_journal (journal_text l) = Some l' /\ Forall2 same_content l l'.
Proof.
  intros E B. apply accepted in E. exists (map reread l). split.
  - apply read_written. rewrite Forall_forall in *. intros f I. specialize (E f I). specialize (B f I). destruct E as (E1 & E2 & E3 & E4 & _ & E6). split; [exact E1|]. split; [exact E2|]. split; [|auto].
    intros k c H. destruct (E6 k c H) as (N & U & C). split; [exact N|]. split; [|exact U]. apply C. rewrite Forall_forall in B. apply (B (k, c) H).
  - clear B. induction E as [|f l (_ & _ & E3 & _ & (V1 & V2 & V3 & V4) & _) _ IH]; constructor; [|exact IH]. unfold same_content, reread.
    cbn [fj_cwd fj_cmd fj_conf fj_start fj_end fj_job j_coalesced j_smt j_ctsize j_completed]. rewrite !repair_valid by assumption. repeat (split; [reflexivity|]).
    split; [|repeat (split; [reflexivity|]); split; [exact E3|symmetry; apply sort_perm]].
    destruct (fj_cmd f) as [c|]; [|reflexivity]. cbn [option_map]. f_equal. symmetry. rewrite <- (map_id c) at 2. apply map_ext_Forall. revert V2. apply Forall_impl. intros x. apply repair_valid.
Qed.
Lemma get_iff {V} k (v : V) m : NoDup (map fst m) -> (get_key k m = Some v <-> In (k, v) m).
Proof.
  intros D. split; [apply get_key_In|]. induction m as [|[k' v'] m IH]; intros I; [destruct I|]. inversion D as [|? ? N D']; subst. cbn [get_key]. destruct I as [[= -> ->]|I].
  - now rewrite beqb_refl.
  - destruct (beqb k k') eqn:E; [|auto]. apply beqb_eq in E as ->. exfalso. apply N. change k' with (fst (k', v)). apply in_map, I.
Qed.
Lemma get_perm {V} k (m m' : list (bytes * V)) : NoDup (map fst m) -> Permutation m m' -> get_key k m' = get_key k m.
Proof.
  intros D P. assert (D' : NoDup (map fst m')) by (apply (Permutation_NoDup (Permutation_map fst P)), D).
  destruct (get_key k m) as [v|] eqn:E.
  - apply get_iff; [exact D'|]. apply (Permutation_in _ P), get_iff; assumption.
  - destruct (get_key k m') as [v|] eqn:E'; [|reflexivity]. apply get_iff in E'; [|exact D']. apply (Permutation_in _ (Permutation_sym P)) in E'. apply get_iff in E'; [|exact D]. congruence.
Qed.
