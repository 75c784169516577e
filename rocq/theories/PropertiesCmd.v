(** C98: the command lines of the ingest command and of the map server. *)
From Coq Require Import Strings.String ZArith Lia.
From Verif Require Import Base BaseLemmas UtilModel UtilDuration DbModel JsonText JsonTextProofs JsonModel ConfModel DsnModel DsnProofs WireModel WireSpec PropertiesWire CmdModel CmdProofs.
Local Open Scope list_scope.
Local Notation b_ s := (list_byte_of_string s%string).
Local Open Scope bool_scope.
Local Notation length := List.length.

(** The flags of the ingest command, and those of the map server, whose "version" and "v" are the same. *)
Definition ingest_flags : list flagdef :=
  map (fun n => (n, KText, n)) [b_ "cpuprofile"; b_ "memprofile"; b_ "dbname"] ++
  map (fun n => (n, KInt, n)) [b_ "multiinsert"; b_ "numfiles"; b_ "numparsers"; b_ "numdechainers"; b_ "numdbworkers"] ++
  [(b_ "strategy", KText, b_ "strategy"); (b_ "filebatch", KInt, b_ "filebatch"); (b_ "journal", KText, b_ "journal")] ++
  map (fun n => (n, KBool, n)) [b_ "includeplaincsvs"; b_ "skipmissingfiles"].
Definition map_flags : list flagdef :=
  [(b_ "version", KBool, b_ "version"); (b_ "v", KBool, b_ "version"); (b_ "updateNow", KBool, b_ "updateNow"); (b_ "createSampleConfig", KBool, b_ "createSampleConfig"); (b_ "policyFile", KText, b_ "policyFile")].
(** The last value given for a variable, or the usual one *)
Definition last_or (l : list setting) (v : bytes) (d : value) : value := match find (fun s => beqb (s_var s) v) (rev l) with Some s => s_value s | None => d end.
(** The phases of the strategies *)
Definition strategies : list (bytes * phases) :=
  [([], mk_phases true true true false); (b_ "onlyingest", mk_phases true false false false); (b_ "skipingest", mk_phases false true true false);
   (b_ "onlysmtupdate", mk_phases false false true false); (b_ "recordctsize", mk_phases false false false true)].
(** Further flags have other names and other variables *)
Definition apart (more : list flagdef) : Prop := NoDup (names (ingest_flags ++ more)) /\ forall d, In d more -> ~ In (snd d) (names ingest_flags).
Definition configured (l : list setting) (rest : list bytes) (c : config) : Prop :=
  directory c = match rest with [] => [] | s :: _ => s end /\
  VText (strategy c) = last_or l (b_ "strategy") (VText []) /\ VText (journal_file c) = last_or l (b_ "journal") (VText (b_ "fpki-journal.json")) /\
  VText (db_name c) = last_or l (b_ "dbname") (VText (b_ "fpki")) /\ VInt (file_batch c) = last_or l (b_ "filebatch") (VInt 0) /\
  VInt (multi_insert c) = last_or l (b_ "multiinsert") (VInt 10000) /\ VInt (num_files c) = last_or l (b_ "numfiles") (VInt 4) /\
  VInt (num_parsers c) = last_or l (b_ "numparsers") (VInt 32) /\ VInt (num_dechainers c) = last_or l (b_ "numdechainers") (VInt 4) /\
  VInt (num_writers c) = last_or l (b_ "numdbworkers") (VInt 32) /\ VBool (plain_csvs c) = last_or l (b_ "includeplaincsvs") (VBool false) /\
  VBool (skip_missing c) = last_or l (b_ "skipmissingfiles") (VBool false) /\ VText (cpu_profile c) = last_or l (b_ "cpuprofile") (VText []) /\
  VText (mem_profile c) = last_or l (b_ "memprofile") (VText []).

(** ** Proofs used below *)
Lemma own_is : own_flags = ingest_flags. Proof. reflexivity. Qed.
Lemma server_is : server_flags = map_flags. Proof. reflexivity. Qed.
Lemma server_distinct : NoDup (names map_flags).
Proof. repeat constructor; cbn; intros H; decompose [or] H; (discriminate || contradiction). Qed.
Definition kind_of (x : value) : kind := match x with VText _ => KText | VInt _ => KInt | VBool _ => KBool end.
Lemma denotes_kind k t x : denotes k t x -> kind_of x = k.
Proof. now intros []. Qed.
Lemma writes_kind defs w v x : writes defs w v x -> exists name, In (name, kind_of x, v) defs.
Proof. intros [m name k v' t x' _ _ D V | m name k v' t x' _ _ D _ V | m name v' _ _ D]; [rewrite (denotes_kind _ _ _ V); eauto | rewrite (denotes_kind _ _ _ V); eauto | eauto]. Qed.
Lemma own_kind more (A : apart more) l : all_write (ingest_flags ++ more) l -> forall v k d, In (v, k, v) ingest_flags -> kind_of d = k -> kind_of (last_or l v d) = k.
Proof.
  intros H v k d I K. unfold last_or. destruct (find (fun s => beqb (s_var s) v) (rev l)) as [s|] eqn:F; [|exact K]. apply find_some in F as [In_s E]. apply beqb_eq in E. apply in_rev in In_s.
  unfold all_write in H. rewrite Forall_forall in H. destruct (writes_kind _ _ _ _ (H s In_s)) as (name & D). rewrite E in D. apply in_app_or in D as [D|D].
  - cbn in D, I. decompose [or] D; try contradiction; match goal with X : (_, _, _) = (_, _, _) |- _ => injection X as <- K1 E1 end; rewrite <- K1; decompose [or] I; try contradiction;
      match goal with X : (_, _, _) = (v, k, v) |- _ => injection X as E2 K2 _ end; (exact K2 || (rewrite <- E2 in E1; discriminate E1)).
  - exfalso. apply (proj2 A _ D). cbn [snd]. exact (in_map (fun d => fst (fst d)) _ _ I).
Qed.
Lemma text_back x : kind_of x = KText -> VText (text_of x) = x. Proof. now destruct x. Qed.
Lemma int_back x : kind_of x = KInt -> VInt (int_of x) = x. Proof. now destruct x. Qed.
Lemma bool_back x : kind_of x = KBool -> VBool (bool_of x) = x. Proof. now destruct x. Qed.
Lemma last_is l e v : last_of l e v = last_or l v (e v). Proof. reflexivity. Qed.
Lemma configured_iff more (A : apart more) l rest c : all_write (ingest_flags ++ more) l -> (configured l rest c <-> c = config_from (applied l own_defaults) rest).
Proof.
  intros H. pose proof (own_kind more A l H) as K. unfold config_from. repeat rewrite applied_last. repeat rewrite last_is.
  assert (T : forall v d, In (v, KText, v) ingest_flags -> kind_of d = KText -> VText (text_of (last_or l v d)) = last_or l v d) by (intros v d I D; apply text_back, K; assumption).
  assert (Z : forall v d, In (v, KInt, v) ingest_flags -> kind_of d = KInt -> VInt (int_of (last_or l v d)) = last_or l v d) by (intros v d I D; apply int_back, K; assumption).
  assert (B : forall v d, In (v, KBool, v) ingest_flags -> kind_of d = KBool -> VBool (bool_of (last_or l v d)) = last_or l v d) by (intros v d I D; apply bool_back, K; assumption).
  split.
  - unfold configured. destruct c as [f1 f2 f3 f4 f5 f6 f7 f8 f9 f10 f11 f12 f13 f14]. cbn [directory strategy journal_file db_name file_batch multi_insert num_files num_parsers num_dechainers num_writers plain_csvs skip_missing cpu_profile mem_profile].
    intros (-> & E1 & E2 & E3 & E4 & E5 & E6 & E7 & E8 & E9 & E10 & E11 & E12 & E13).
    change (own_defaults (b_ "strategy")) with (VText []). change (own_defaults (b_ "journal")) with (VText (b_ "fpki-journal.json")). change (own_defaults (b_ "dbname")) with (VText (b_ "fpki")).
    change (own_defaults (b_ "filebatch")) with (VInt 0). change (own_defaults (b_ "multiinsert")) with (VInt 10000). change (own_defaults (b_ "numfiles")) with (VInt 4). change (own_defaults (b_ "numparsers")) with (VInt 32).
    change (own_defaults (b_ "numdechainers")) with (VInt 4). change (own_defaults (b_ "numdbworkers")) with (VInt 32). change (own_defaults (b_ "includeplaincsvs")) with (VBool false).
    change (own_defaults (b_ "skipmissingfiles")) with (VBool false). change (own_defaults (b_ "cpuprofile")) with (VText []). change (own_defaults (b_ "memprofile")) with (VText []).
    rewrite <- E1, <- E2, <- E3, <- E4, <- E5, <- E6, <- E7, <- E8, <- E9, <- E10, <- E11, <- E12, <- E13. reflexivity.
  - intros ->. unfold configured. cbn [directory strategy journal_file db_name file_batch multi_insert num_files num_parsers num_dechainers num_writers plain_csvs skip_missing cpu_profile mem_profile].
    split; [reflexivity|]. repeat split; first [apply T | apply Z | apply B]; (reflexivity || (cbn; tauto)).
Qed.
Lemma validate_iff c p : validate c = Some p <-> In (strategy c, p) strategies /\ (p_ingest p = true \/ p_record p = true -> directory c <> []).
Proof.
  assert (J : forall p, job (strategy c) = Some p <-> In (strategy c, p) strategies).
  { clear p. intros p. unfold job. cbn [In strategies]. repeat match goal with |- context [beqb (strategy c) ?t] => destruct (beqb_spec (strategy c) t) as [->|] end;
      (split; [intros E; (discriminate E || (injection E as <-; tauto)) | intros E; decompose [or] E; try contradiction; match goal with X : (_, _) = (_, _) |- _ => injection X; intros; subst; (reflexivity || discriminate || congruence) end]). }
  unfold validate. destruct (job (strategy c)) as [q|] eqn:E.
  - pose proof (proj1 (J q) eq_refl) as Iq. assert (U : In (strategy c, p) strategies -> q = p) by (intros X; apply J in X; congruence).
    destruct (p_ingest q) eqn:P1; cbn [andb]; [|destruct (p_record q) eqn:P2; cbn [andb]].
    + destruct (beqb_spec (directory c) []) as [D|D]; [split; [discriminate|]; intros [X Y]; apply U in X; subst q; exfalso; apply Y; auto|].
      assert (R : (if p_record q && false then None else Some q) = Some q) by (destruct (p_record q); reflexivity). rewrite R. split; [intros X; injection X as <-; auto | intros [X _]; now rewrite (U X)].
    + destruct (beqb_spec (directory c) []) as [D|D]; [split; [discriminate|]; intros [X Y]; apply U in X; subst q; exfalso; apply Y; auto|]. split; [intros X; injection X as <-; auto | intros [X _]; now rewrite (U X)].
    + split; [intros X; injection X as <-; split; [exact Iq|]; intros [Y|Y]; congruence | intros [X _]; now rewrite (U X)].
  - split; [discriminate|]. intros [X _]. apply J in X. congruence.
Qed.
Lemma ingest_iff more (A : apart more) args c p : ingest_main more args = Goes c p <-> exists l tail rest, args = line l ++ tail /\ all_write (ingest_flags ++ more) l /\ stops tail rest /\
  configured l rest c /\ In (strategy c, p) strategies /\ (p_ingest p = true \/ p_record p = true -> directory c <> []).
Proof.
  unfold ingest_main. rewrite own_is. split.
  - destruct (parse (ingest_flags ++ more) own_defaults args) as [e rest| |] eqn:E; try discriminate. apply (parse_iff _ (proj1 A)) in E as (l & tail & -> & W & S & ->). cbv zeta.
    destruct (validate _) as [q|] eqn:V; [|discriminate]. intros H. injection H as <- <-. exists l, tail, rest. split; [reflexivity|]. split; [exact W|]. split; [exact S|]. split; [now apply (configured_iff more A)|]. now apply validate_iff.
  - intros (l & tail & rest & -> & W & S & C & J & D). apply (configured_iff more A) in C; [|exact W]. rewrite (parse_all _ (proj1 A) _ W), (parse_stop _ _ _ _ S). cbv zeta. rewrite <- C.
    rewrite (proj2 (validate_iff c p) (conj J D)). reflexivity.
Qed.

(** ** C98 *)
(** The ingest command goes on exactly with command lines made of flags and then other arguments; its configuration has the last value of every flag, the usual ones else, and the first other argument as directory;
    the strategy decides the phases, and the phases which need a directory have one. *)
Theorem C98_ingest : forall more args c p, apart more ->
  (ingest_main more args = Goes c p <-> exists l tail rest, args = line l ++ tail /\ all_write (ingest_flags ++ more) l /\ stops tail rest /\
    configured l rest c /\ In (strategy c, p) strategies /\ (p_ingest p = true \/ p_record p = true -> directory c <> [])).
Proof. intros more args c p A. exact (ingest_iff more A args c p). Qed.

(** What is not accepted ends before anything is done: with code 1 for a configuration, with code 0 if help is asked for, and with code 2 for other flags. *)
Theorem C98_refused : forall more args code, apart more -> ingest_main more args = Exits code ->
  (code = 1 /\ exists l tail rest c, args = line l ++ tail /\ all_write (ingest_flags ++ more) l /\ stops tail rest /\ configured l rest c /\
     ((forall p, ~ In (strategy c, p) strategies) \/ directory c = [])) \/
  (code = 0 /\ asks_help (ingest_flags ++ more) args) \/
  (code = 2 /\ ~ asks_help (ingest_flags ++ more) args /\ forall l tail rest, all_write (ingest_flags ++ more) l -> stops tail rest -> args <> line l ++ tail).
Proof.
  intros more args code A. unfold ingest_main. rewrite own_is. destruct (parse (ingest_flags ++ more) own_defaults args) as [e rest| |] eqn:E; intros H.
  - cbv zeta in H. pose proof E as E'. apply (parse_iff _ (proj1 A)) in E' as (l & tail & -> & W & S & ->). destruct (validate _) as [q|] eqn:V in H; [discriminate|]. injection H as <-. left. split; [reflexivity|].
    set (c := config_from _ _) in V. exists l, tail, rest, c. split; [reflexivity|]. split; [exact W|]. split; [exact S|]. split; [now apply (configured_iff more A)|].
    destruct (list_eq_dec Byte.byte_eq_dec (directory c) []) as [D|D]; [now right|]. left. intros p X. pose proof (proj2 (validate_iff c p) (conj X (fun _ => D))) as Y. congruence.
  - injection H as <-. right. right. split; [auto|]. split; [intros X; apply (help_iff _ (proj1 A) own_defaults) in X; congruence|]. intros l tail rest W S ->. rewrite (parse_all _ (proj1 A) _ W), (parse_stop _ _ _ _ S) in E. discriminate.
  - injection H as <-. right. left. split; [auto|]. now apply (help_iff _ (proj1 A)) in E.
Qed.

(** Numbers are read in base ten if they do not begin with a zero, within 64 bits; every number has such a text. *)
Theorem C98_numbers : (forall z, (- 2 ^ 63 <= z < 2 ^ 63)%Z -> parse_int0 (dec_Z z) = Some z) /\
  forall sign c s, c <> x30 -> forallb is_digit (c :: s) = true -> In sign [[]; [x2b]; [x2d]] ->
    parse_int0 (sign ++ c :: s) = let v := (if beqb sign [x2d] then - Z.of_N (dec_value (c :: s)) else Z.of_N (dec_value (c :: s)))%Z in if ((- 2 ^ 63 <=? v) && (v <? 2 ^ 63))%Z then Some v else None.
Proof. split; [exact decimal_own|]. intros sign c s H1 H2 H3. now apply decimal_text. Qed.

(** After 0b, 0o and 0x, in small or capital letters, they are read in base 2, 8 and 16. *)
Theorem C98_marked : forall m base ds sign, In (m, base) [(x62, 2); (x42, 2); (x6f, 8); (x4f, 8); (x78, 16); (x58, 16)]%Z -> ds <> [] ->
  Forall (fun d => In d (combine (b_ "0123456789abcdefABCDEF") [0; 1; 2; 3; 4; 5; 6; 7; 8; 9; 10; 11; 12; 13; 14; 15; 10; 11; 12; 13; 14; 15]%Z) /\ (snd d < base)%Z) ds -> In sign [[]; [x2b]; [x2d]] ->
  let value := fold_left (fun v d => v * base + snd d)%Z ds 0%Z in
  parse_int0 (sign ++ x30 :: m :: map fst ds) = let v := (if beqb sign [x2d] then - value else value)%Z in if ((- 2 ^ 63 <=? v) && (v <? 2 ^ 63))%Z then Some v else None.
Proof. exact marked_text. Qed.
Example C98_ex_marked : parse_int0 (b_ "-0xFf") = Some (-255)%Z /\ parse_int0 (b_ "0b101") = Some 5%Z /\ parse_int0 (b_ "0o17") = Some 15%Z /\ parse_int0 (b_ "0b2") = None.
Proof. repeat split. Qed.

(** Every configuration can be given. *)
Definition give (name text : bytes) : bytes := minus :: name ++ equals :: text.
Definition truth (b : bool) : bytes := if b then b_ "true" else b_ "false".
Definition command_line (c : config) : list bytes :=
  [give (b_ "strategy") (strategy c); give (b_ "journal") (journal_file c); give (b_ "dbname") (db_name c); give (b_ "filebatch") (dec_Z (file_batch c)); give (b_ "multiinsert") (dec_Z (multi_insert c));
   give (b_ "numfiles") (dec_Z (num_files c)); give (b_ "numparsers") (dec_Z (num_parsers c)); give (b_ "numdechainers") (dec_Z (num_dechainers c)); give (b_ "numdbworkers") (dec_Z (num_writers c));
   give (b_ "includeplaincsvs") (truth (plain_csvs c)); give (b_ "skipmissingfiles") (truth (skip_missing c)); give (b_ "cpuprofile") (cpu_profile c); give (b_ "memprofile") (mem_profile c);
   b_ "--"; directory c].
Definition in_int (z : Z) : Prop := (- 2 ^ 63 <= z < 2 ^ 63)%Z.
Lemma name_good n : negb (existsb (Byte.eqb equals) n) && match n with [] => false | c :: _ => negb (Byte.eqb c minus) end = true -> good_name n.
Proof.
  intros H. apply andb_true_iff in H as [H1 H2]. destruct n as [|c r]; [discriminate|]. exists c, r. split; [reflexivity|]. split.
  - intros ->. rewrite byte_eqb_refl in H2. discriminate.
  - intros I. apply negb_true_iff in H1. assert (X : existsb (Byte.eqb equals) (c :: r) = true) by (apply existsb_exists; exists equals; split; [exact I | apply byte_eqb_refl]). congruence.
Qed.
Lemma give_writes more n k t x : In (n, k, n) ingest_flags -> denotes k t x -> writes (ingest_flags ++ more) [give n t] n x.
Proof.
  intros I D. apply (w_with _ [minus] n k n t x); [cbn; auto| |apply in_or_app; now left|exact D]. apply name_good. cbn in I. decompose [or] I; try contradiction; match goal with X : (_, _, _) = (n, _, _) |- _ => injection X as <- _ _ end; reflexivity.
Qed.
Lemma truth_denotes b : denotes KBool (truth b) (VBool b).
Proof. apply bool_words. destruct b; reflexivity. Qed.
Theorem C98_every : forall more c p, apart more -> In (strategy c, p) strategies -> (p_ingest p = true \/ p_record p = true -> directory c <> []) ->
  in_int (file_batch c) -> in_int (multi_insert c) -> in_int (num_files c) -> in_int (num_parsers c) -> in_int (num_dechainers c) -> in_int (num_writers c) ->
  ingest_main more (command_line c) = Goes c p.
Proof.
  intros more c p A J D I1 I2 I3 I4 I5 I6. apply ingest_iff; [exact A|].
  exists [([give (b_ "strategy") (strategy c)], b_ "strategy", VText (strategy c)); ([give (b_ "journal") (journal_file c)], b_ "journal", VText (journal_file c)); ([give (b_ "dbname") (db_name c)], b_ "dbname", VText (db_name c));
    ([give (b_ "filebatch") (dec_Z (file_batch c))], b_ "filebatch", VInt (file_batch c)); ([give (b_ "multiinsert") (dec_Z (multi_insert c))], b_ "multiinsert", VInt (multi_insert c));
    ([give (b_ "numfiles") (dec_Z (num_files c))], b_ "numfiles", VInt (num_files c)); ([give (b_ "numparsers") (dec_Z (num_parsers c))], b_ "numparsers", VInt (num_parsers c));
    ([give (b_ "numdechainers") (dec_Z (num_dechainers c))], b_ "numdechainers", VInt (num_dechainers c)); ([give (b_ "numdbworkers") (dec_Z (num_writers c))], b_ "numdbworkers", VInt (num_writers c));
    ([give (b_ "includeplaincsvs") (truth (plain_csvs c))], b_ "includeplaincsvs", VBool (plain_csvs c)); ([give (b_ "skipmissingfiles") (truth (skip_missing c))], b_ "skipmissingfiles", VBool (skip_missing c));
    ([give (b_ "cpuprofile") (cpu_profile c)], b_ "cpuprofile", VText (cpu_profile c)); ([give (b_ "memprofile") (mem_profile c)], b_ "memprofile", VText (mem_profile c))], [b_ "--"; directory c], [directory c].
  split; [reflexivity|]. split.
  { unfold all_write. repeat constructor; cbn [s_args s_var s_value fst snd]; (eapply give_writes; [cbn; tauto|]); first [apply d_text | apply d_int; apply decimal_own; assumption | apply truth_denotes]. }
  split; [exact (stop_dashes [directory c])|]. split; [|split; assumption]. unfold configured. repeat split.
Qed.

(** The map server: the version if asked for; otherwise exactly one other argument, the file of the configuration; a sample, a policy, or the server. *)
Theorem C98_server : forall l tail rest, all_write map_flags l -> stops tail rest ->
  (last_or l (b_ "version") (VBool false) = VBool true /\ server_main (line l ++ tail) = SVersion) \/
  (last_or l (b_ "version") (VBool false) = VBool false /\ length rest <> 1 /\ server_main (line l ++ tail) = SExits 1) \/
  (last_or l (b_ "version") (VBool false) = VBool false /\ exists file, rest = [file] /\
    ((last_or l (b_ "createSampleConfig") (VBool false) = VBool true /\ server_main (line l ++ tail) = SSample file) \/
     (last_or l (b_ "createSampleConfig") (VBool false) = VBool false /\ exists policy, last_or l (b_ "policyFile") (VText []) = VText policy /\
       ((policy <> [] /\ server_main (line l ++ tail) = SPolicy policy file) \/
        (policy = [] /\ exists now, last_or l (b_ "updateNow") (VBool false) = VBool now /\ server_main (line l ++ tail) = SRuns now file))))).
Proof.
  intros l tail rest W S. unfold server_main. rewrite server_is, (parse_all _ server_distinct _ W), (parse_stop _ _ _ _ S).
  assert (K : forall v k d, In k [KText; KBool] -> (forall n k', In (n, k', v) map_flags -> k' = k) -> kind_of d = k -> kind_of (last_or l v d) = k).
  { intros v k d _ U D. unfold last_or. destruct (find (fun s => beqb (s_var s) v) (rev l)) as [s|] eqn:F; [|exact D]. apply find_some in F as [I Eq]. apply beqb_eq in Eq. apply in_rev in I.
    unfold all_write in W. rewrite Forall_forall in W. destruct (writes_kind _ _ _ _ (W s I)) as (n & X). rewrite Eq in X. exact (U _ _ X). }
  assert (Kb : forall v, In v [b_ "version"; b_ "createSampleConfig"; b_ "updateNow"] -> exists b, last_or l v (VBool false) = VBool b).
  { intros v Hv. assert (X : kind_of (last_or l v (VBool false)) = KBool).
    { apply K; [cbn; auto| |reflexivity]. intros n k' I. cbn in Hv, I. decompose [or] Hv; try contradiction; subst v; decompose [or] I; try contradiction; match goal with Y : (_, _, _) = (_, _, _) |- _ => injection Y; intros; subst; (reflexivity || discriminate) end. }
    destruct (last_or l v (VBool false)) as [| |b]; try discriminate. eauto. }
  assert (Kt : exists s, last_or l (b_ "policyFile") (VText []) = VText s).
  { assert (X : kind_of (last_or l (b_ "policyFile") (VText [])) = KText).
    { apply K; [cbn; auto| |reflexivity]. intros n k' I. cbn in I. decompose [or] I; try contradiction; match goal with Y : (_, _, _) = (_, _, _) |- _ => injection Y; intros; subst; (reflexivity || discriminate) end. }
    destruct (last_or l (b_ "policyFile") (VText [])) as [s| |]; try discriminate. eauto. }
  destruct (Kb (b_ "version") ltac:(cbn; auto)) as (bv & Ev). destruct (Kb (b_ "createSampleConfig") ltac:(cbn; auto)) as (bs & Es). destruct (Kb (b_ "updateNow") ltac:(cbn; auto)) as (bu & Eu). destruct Kt as (pol & Ep).
  repeat rewrite applied_last. repeat rewrite last_is. change (server_defaults (b_ "version")) with (VBool false). change (server_defaults (b_ "createSampleConfig")) with (VBool false).
  change (server_defaults (b_ "updateNow")) with (VBool false). change (server_defaults (b_ "policyFile")) with (VText []). rewrite Ev, Es, Eu, Ep. cbn [bool_of text_of].
  destruct bv; [left; auto|]. right. destruct rest as [|file [|? ?]]; [left; cbn; auto| |left; cbn; auto]. right. split; [reflexivity|]. exists file. split; [reflexivity|].
  destruct bs; [left; auto|]. right. split; [reflexivity|]. exists pol. split; [reflexivity|]. destruct (beqb_spec pol []) as [->|N]; [right; split; [reflexivity|]; exists bu; auto | left; auto].
Qed.
(** Other command lines end with the code of the flags. *)
Theorem C98_server_refused : forall args, (forall l tail rest, all_write map_flags l -> stops tail rest -> args <> line l ++ tail) ->
  (asks_help map_flags args /\ server_main args = SExits 0) \/ (~ asks_help map_flags args /\ server_main args = SExits 2).
Proof.
  intros args H. unfold server_main. rewrite server_is. destruct (parse map_flags server_defaults args) as [e rest| |] eqn:E.
  - apply (parse_iff _ server_distinct) in E as (l & tail & -> & W & S & _). now destruct (H l tail rest W S).
  - right. split; [|reflexivity]. intros X. apply (help_iff _ server_distinct server_defaults) in X. congruence.
  - left. split; [|reflexivity]. now apply (help_iff _ server_distinct) in E.
Qed.
(** It takes none of several files, and no flag after the file. *)
Theorem C98_server_one : forall l s t rest, all_write map_flags l -> plain s -> last_or l (b_ "version") (VBool false) = VBool false -> server_main (line l ++ s :: t :: rest) = SExits 1.
Proof.
  intros l s t rest W P V. unfold server_main. rewrite server_is, (parse_all _ server_distinct _ W), (parse_stop _ _ _ _ (stop_plain s (t :: rest) P)), applied_last, last_is. change (server_defaults (b_ "version")) with (VBool false).
  now rewrite V.
Qed.

(** Refuted: that every argument is taken into account. What follows the directory, flags as well, is ignored by the ingest command. *)
Theorem C98_ignored_refuted : forall more l s rest, apart more -> all_write (ingest_flags ++ more) l -> plain s -> ingest_main more (line l ++ s :: rest) = ingest_main more (line l ++ [s]).
Proof.
  intros more l s rest A W P. unfold ingest_main. rewrite own_is, !(parse_all _ (proj1 A) _ W), (parse_stop _ _ _ _ (stop_plain s rest P)), (parse_stop _ _ _ _ (stop_plain s [] P)). reflexivity.
Qed.
Theorem C98_after_refuted : exists args c, In (b_ "-strategy=onlyingest") args /\ ingest_main [] args = Goes c (mk_phases true true true false).
Proof. exists [b_ "bundles"; b_ "-strategy=onlyingest"]. eexists. split; [cbn; auto | reflexivity]. Qed.

(** Refuted: that the numbers of a configuration which is accepted can be worked with. A negative one panics; without readers, parsers or dechainers the ingestion is accepted and ends without having read anything. *)
Lemma number_goes more n z dir : apart more -> In n [b_ "multiinsert"; b_ "numfiles"; b_ "numparsers"; b_ "numdechainers"; b_ "numdbworkers"] -> in_int z -> plain dir -> dir <> [] ->
  exists c, ingest_main more [give n (dec_Z z); dir] = Goes c (mk_phases true true true false) /\ configured [([give n (dec_Z z)], n, VInt z)] [dir] c.
Proof.
  intros A Hn Hz P D. set (l := [([give n (dec_Z z)], n, VInt z)] : list setting).
  assert (W : all_write (ingest_flags ++ more) l). { constructor; [|constructor]. apply (give_writes more n KInt); [|apply d_int; now apply decimal_own]. cbn in Hn |- *. decompose [or] Hn; try contradiction; subst n; tauto. }
  exists (config_from (applied l own_defaults) [dir]). assert (C : configured l [dir] (config_from (applied l own_defaults) [dir])) by now apply (configured_iff more A). split; [|exact C].
  apply ingest_iff; [exact A|]. exists l, [dir], [dir]. split; [reflexivity|]. split; [exact W|]. split; [now constructor|]. split; [exact C|]. split.
  - cbn [strategy config_from]. left. unfold applied, l. cbn [fold_left s_var s_value fst snd]. unfold upd. destruct (beqb (b_ "strategy") n) eqn:E; [|reflexivity]. apply beqb_eq in E. subst n. cbn in Hn. decompose [or] Hn; (discriminate || contradiction).
  - intros _. exact D.
Qed.
Lemma number_is n z dir c : configured [([give n (dec_Z z)], n, VInt z)] [dir] c ->
  multi_insert c = (if beqb n (b_ "multiinsert") then z else 10000%Z) /\ num_files c = (if beqb n (b_ "numfiles") then z else 4%Z) /\ num_parsers c = (if beqb n (b_ "numparsers") then z else 32%Z) /\
  num_dechainers c = (if beqb n (b_ "numdechainers") then z else 4%Z) /\ num_writers c = (if beqb n (b_ "numdbworkers") then z else 32%Z).
Proof.
  intros (_ & _ & _ & _ & _ & E1 & E2 & E3 & E4 & E5 & _). unfold last_or in *. cbn [rev app find s_var s_value fst snd] in *. revert E1 E2 E3 E4 E5. repeat match goal with |- context [beqb n ?t] => destruct (beqb n t) end; cbn [s_value snd]; intros; repeat split; congruence.
Qed.
Theorem C98_negative_refuted : forall more n z dir, apart more -> In n [b_ "multiinsert"; b_ "numfiles"; b_ "numparsers"; b_ "numdechainers"; b_ "numdbworkers"] -> (- 2 ^ 63 <= z < 0)%Z -> plain dir -> dir <> [] ->
  exists c p, ingest_main more [give n (dec_Z z); dir] = Goes c p /\ p_ingest p = true /\ processor_of c = Panicked.
Proof.
  intros more n z dir A Hn Hz P D. destruct (number_goes more n z dir A Hn ltac:(unfold in_int; lia) P D) as (c & G & C). exists c, (mk_phases true true true false). split; [exact G|]. split; [reflexivity|].
  destruct (number_is n z dir c C) as (E1 & E2 & E3 & E4 & E5). unfold processor_of. rewrite E1, E2, E3, E4, E5. assert (Z0 : (z <? 0)%Z = true) by (apply Z.ltb_lt; lia).
  cbn in Hn. decompose [or] Hn; try contradiction; subst n; repeat match goal with |- context [beqb ?a ?b] => let v := eval vm_compute in (beqb a b) in change (beqb a b) with v end; cbv iota; rewrite Z0; try reflexivity;
    repeat rewrite orb_true_r; reflexivity.
Qed.
Theorem C98_nothing_refuted : forall more n dir, apart more -> In n [b_ "numfiles"; b_ "numparsers"; b_ "numdechainers"] -> plain dir -> dir <> [] ->
  exists c p net, ingest_main more [give n (b_ "0"); dir] = Goes c p /\ p_ingest p = true /\ processor_of c = Wired net /\
    let S := Z.to_nat (num_files c) in let W := Z.to_nat (num_parsers c) in let C := Z.to_nat (num_dechainers c) in let N := Z.to_nat (num_writers c) in
    stopped net (resumed S W C N) False FSrc /\ closed net (resumed S W C N) False (CTop FSrc).
Proof.
  intros more n dir A Hn P D. destruct (number_goes more n 0 dir A ltac:(cbn in Hn |- *; tauto) ltac:(unfold in_int; lia) P D) as (c & G & C). destruct (number_is n 0 dir c C) as (E1 & E2 & E3 & E4 & E5).
  assert (Z0 : Z.to_nat (num_files c) = 0 \/ Z.to_nat (num_parsers c) = 0 \/ Z.to_nat (num_dechainers c) = 0).
  { rewrite E2, E3, E4. cbn in Hn. decompose [or] Hn; try contradiction; subst n; [left | right; left | right; right]; reflexivity. }
  assert (Zw : num_writers c = 32%Z) by (rewrite E5; cbn in Hn; decompose [or] Hn; try contradiction; subst n; reflexivity).
  assert (Zn : ((multi_insert c <? 0) || (num_files c <? 0) || (num_parsers c <? 0) || (num_dechainers c <? 0))%Z = false).
  { rewrite E1, E2, E3, E4. cbn in Hn. decompose [or] Hn; try contradiction; subst n; reflexivity. }
  destruct (C91_no_workers_refuted _ _ _ (Z.to_nat (num_writers c)) Z0 ltac:(rewrite Zw; lia)) as (net & Wn & St & Cl). exists c, (mk_phases true true true false), net. split; [exact G|]. split; [reflexivity|]. split.
  - unfold processor_of. rewrite Zn. rewrite andb_false_r. rewrite Zw at 1. exact Wn.
  - cbv zeta. auto.
Qed.

(** Refuted: that digits mean a decimal number. After a zero in front they are octal. *)
Theorem C98_octal_refuted : forall s, Forall octal s -> (octal_value s < 2 ^ 63)%Z -> parse_int0 (x30 :: s) = Some (octal_value s).
Proof. exact octal_text. Qed.
Theorem C98_zero_refuted : exists c, ingest_main [] [b_ "-numdbworkers"; b_ "032"; b_ "bundles"] = Goes c (mk_phases true true true false) /\ num_writers c = 26%Z.
Proof. eexists. split; reflexivity. Qed.

(** ** Examples *)
Example C98_ex_apart : apart [(b_ "logtostderr", KBool, b_ "logtostderr"); (b_ "v", KInt, b_ "v")].
Proof. split; [repeat constructor; cbn; intros H; decompose [or] H; (discriminate || contradiction)|]. intros d Hd H. cbn in Hd, H. decompose [or] Hd; try contradiction; subst d; decompose [or] H; (discriminate || contradiction). Qed.
Example C98_ex_usual : exists c, ingest_main [] [b_ "-numfiles"; b_ "1"; b_ "--numparsers=4"; b_ "-strategy"; b_ "onlyingest"; b_ "-includeplaincsvs"; b_ "-numparsers"; b_ "0x10"; b_ "./testdata2/"] = Goes c (mk_phases true false false false) /\
  num_files c = 1%Z /\ num_parsers c = 16%Z /\ plain_csvs c = true /\ directory c = b_ "./testdata2/" /\ db_name c = b_ "fpki".
Proof. eexists. repeat split. Qed.
Example C98_ex_refused : map (ingest_main []) [[]; [b_ "-strategy=smt"; b_ "d"]; [b_ "-strategy=recordctsize"]; [b_ "-numfiles"]; [b_ "-numfiles=1_"; b_ "d"]; [b_ "-nope"; b_ "d"]; [b_ "---numfiles=1"]; [b_ "-=1"]; [b_ "-h"]; [b_ "-skipmissingfiles=yes"; b_ "d"]] =
  [Exits 1; Exits 1; Exits 1; Exits 2; Exits 2; Exits 2; Exits 2; Exits 2; Exits 0; Exits 2].
Proof. reflexivity. Qed.
Example C98_ex_without : exists c, ingest_main [] [b_ "-strategy=skipingest"] = Goes c (mk_phases false true true false) /\ directory c = [].
Proof. eexists. repeat split. Qed.
Example C98_ex_numbers : map parse_int0 [b_ "1_000"; b_ "0b101"; b_ "0O17"; b_ "0x_fF"; b_ "-0x8"; b_ "+7"; b_ "_1"; b_ "1__0"; b_ "08"; b_ "9223372036854775807"; b_ "9223372036854775808"; b_ "-9223372036854775808"; b_ "0x"; b_ ""; b_ "-"; b_ "1e3"] =
  [Some 1000; Some 5; Some 15; Some 255; Some (-8); Some 7; None; None; None; Some 9223372036854775807; None; Some (-9223372036854775808); None; None; None; None]%Z.
Proof. reflexivity. Qed.
Example C98_ex_server : map server_main [[b_ "config.json"]; [b_ "-updateNow"; b_ "config.json"]; [b_ "-policyFile"; b_ "p.json"; b_ "-updateNow"; b_ "config.json"]; [b_ "-createSampleConfig"; b_ "-policyFile=p"; b_ "config.json"];
    [b_ "-v"]; [b_ "-version"; b_ "-v=false"; b_ "config.json"]; []; [b_ "config.json"; b_ "-updateNow"]; [b_ "-stderrthreshold=1"; b_ "config.json"]; [b_ "--"; b_ "-c"]] =
  [SRuns false (b_ "config.json"); SRuns true (b_ "config.json"); SPolicy (b_ "p.json") (b_ "config.json"); SSample (b_ "config.json"); SVersion; SRuns false (b_ "config.json"); SExits 1; SExits 1; SExits 2; SRuns false (b_ "-c")].
Proof. reflexivity. Qed.

Print Assumptions C98_ingest.
Print Assumptions C98_refused.
Print Assumptions C98_numbers.
Print Assumptions C98_marked.
Print Assumptions C98_every.
Print Assumptions C98_server.
Print Assumptions C98_server_refused.
Print Assumptions C98_server_one.
Print Assumptions C98_ignored_refuted.
Print Assumptions C98_after_refuted.
Print Assumptions C98_negative_refuted.
Print Assumptions C98_nothing_refuted.
Print Assumptions C98_octal_refuted.
Print Assumptions C98_zero_refuted.
