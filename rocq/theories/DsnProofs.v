(** Proofs about DsnModel. *)
From Coq Require Import Strings.String ZArith Lia Permutation.
From Verif Require Import Base BaseLemmas UtilModel UtilDuration DbModel JsonText JsonTextProofs JsonModel ConfModel ConfProofs DsnModel.
Local Open Scope list_scope.
Local Notation b_ s := (list_byte_of_string s%string).
Local Open Scope bool_scope.

(** ** Cutting texts *)
Lemma eqb_no (a b : byte) : a <> b -> Byte.eqb a b = false.
Proof. intros H. apply Bool.not_true_is_false. intros E. now apply byte_eqb_eq in E. Qed.
Lemma occurs_not c s : ~ In c s -> occurs c s = false.
Proof. intros H. apply Bool.not_true_is_false. intros E. unfold occurs in E. apply existsb_exists in E as (d & I & E). apply byte_eqb_eq in E. now subst. Qed.
Lemma occurs_in c s : In c s -> occurs c s = true.
Proof. intros H. unfold occurs. apply existsb_exists. exists c. split; [exact H|apply byte_eqb_refl]. Qed.
Lemma split_first_at c a b : ~ In c a -> split_first c (a ++ c :: b) = Some (a, b).
Proof.
  induction a as [|d a IH]; intros H; cbn [app split_first]; [now rewrite byte_eqb_refl|].
  rewrite eqb_no by (intros ->; apply H; now left). rewrite IH; [reflexivity|]. intros I. apply H. now right.
Qed.
Lemma split_first_none c s : ~ In c s -> split_first c s = None.
Proof.
  induction s as [|d s IH]; intros H; [reflexivity|]. cbn [split_first]. rewrite eqb_no by (intros ->; apply H; now left).
  rewrite IH; [reflexivity|]. intros I. apply H. now right.
Qed.
Lemma split_last_none c s : ~ In c s -> split_last c s = None.
Proof.
  induction s as [|d s IH]; intros H; [reflexivity|]. cbn [split_last]. rewrite IH by (intros I; apply H; now right).
  rewrite eqb_no; [reflexivity|]. intros ->. apply H. now left.
Qed.
Lemma split_last_at c a b : ~ In c b -> split_last c (a ++ c :: b) = Some (a, b).
Proof.
  intros H. induction a as [|d a IH]; cbn [app split_last]; [now rewrite split_last_none, byte_eqb_refl|]. now rewrite IH.
Qed.
Lemma cut_none c s : ~ In c s -> cut c s = (s, []).
Proof. intros H. unfold cut. now rewrite split_first_none. Qed.
Lemma cut_at c a b : ~ In c a -> cut c (a ++ c :: b) = (a, b).
Proof. intros H. unfold cut. now rewrite split_first_at. Qed.
Lemma split_all_acc c s : forall acc, ~ In c s -> split_all c s acc = [acc ++ s].
Proof.
  induction s as [|d s IH]; intros acc H; cbn [split_all]; [now rewrite app_nil_r|].
  rewrite eqb_no by (intros ->; apply H; now left). rewrite IH by (intros I; apply H; now right). now rewrite <- app_assoc.
Qed.
Lemma split_all_at c a b : forall acc, ~ In c a -> split_all c (a ++ c :: b) acc = (acc ++ a) :: split_all c b [].
Proof.
  induction a as [|d a IH]; intros acc H; cbn [app split_all]; [now rewrite byte_eqb_refl, app_nil_r|].
  rewrite eqb_no by (intros ->; apply H; now left). rewrite IH by (intros I; apply H; now right). now rewrite <- app_assoc.
Qed.
Lemma split_join l : l <> [] -> Forall (fun s => ~ In x26 s) l -> split_all x26 (join_amp l) [] = l.
Proof.
  destruct l as [|x l]; [congruence|]. intros _. revert x. induction l as [|y l IH]; intros x F; inversion F as [|? ? Fx Fl]; subst.
  - cbn [join_amp flat_map]. rewrite app_nil_r. now rewrite split_all_acc.
  - cbn [join_amp flat_map app]. rewrite split_all_at by exact Fx. cbn [app]. f_equal. exact (IH y Fl).
Qed.

(** ** Query strings *)
Definition qchar (c : byte) : bool := unreserved c || among "%+" c.
Lemma upper_hex_char c : alnum (upper_hex (Byte.to_N c / 16)) = true /\ alnum (upper_hex (Byte.to_N c mod 16)) = true.
Proof. destruct c; split; reflexivity. Qed.
Lemma query_chars s c : In c (query_escape s) -> qchar c = true.
Proof.
  unfold query_escape. intros I. apply in_flat_map in I as (d & _ & I). unfold qchar.
  destruct (unreserved d) eqn:U; [destruct I as [<-|[]]; now rewrite U|].
  destruct (Byte.eqb d x20); [destruct I as [<-|[]]; reflexivity|]. destruct (upper_hex_char d) as [A B].
  destruct I as [<-|[<-|[<-|[]]]]; [reflexivity| |]; unfold unreserved; [rewrite A|rewrite B]; reflexivity.
Qed.
Lemma percent_read p c r : url_unescape p (percent c ++ r) = prepend [c] (url_unescape p r).
Proof. destruct c; reflexivity. Qed.
Lemma plain_read p c r : Byte.eqb c x25 = false -> p && Byte.eqb c x2b = false -> url_unescape p (c :: r) = prepend [c] (url_unescape p r).
Proof. intros A B. cbn [url_unescape]. now rewrite A, B. Qed.
Lemma unreserved_plain c : unreserved c = true -> Byte.eqb c x25 = false /\ Byte.eqb c x2b = false.
Proof. destruct c; try discriminate; split; reflexivity. Qed.
Lemma query_back s : url_unescape true (query_escape s) = Some s.
Proof.
  induction s as [|c s IH]; [reflexivity|]. unfold query_escape in *. cbn [flat_map]. destruct (unreserved c) eqn:U.
  - destruct (unreserved_plain c U) as [A B]. cbn [app]. rewrite plain_read by (rewrite ?B; auto). now rewrite IH.
  - destruct (Byte.eqb c x20) eqn:E.
    + apply byte_eqb_eq in E. subst c. cbn [app url_unescape]. change (Byte.eqb x2b x25) with false. cbv iota. rewrite IH. reflexivity.
    + rewrite percent_read. now rewrite IH.
Qed.
Lemma query_plain s : forallb unreserved s = true -> query_escape s = s.
Proof.
  induction s as [|c s IH]; [reflexivity|]. cbn [forallb]. intros H. apply andb_prop in H as [A H]. unfold query_escape in *. cbn [flat_map]. rewrite A, (IH H). reflexivity.
Qed.
Definition pair_text (kv : bytes * bytes) : bytes := query_escape (fst kv) ++ x3d :: query_escape (snd kv).
Lemma pair_chars kv c : In c (pair_text kv) -> qchar c || Byte.eqb c x3d = true.
Proof.
  unfold pair_text. intros I. apply in_app_or in I as [I|[<-|I]].
  - now rewrite (query_chars _ _ I).
  - reflexivity.
  - now rewrite (query_chars _ _ I).
Qed.
Lemma join_chars l c : In c (join_amp l) -> c = x26 \/ exists s, In s l /\ In c s.
Proof.
  destruct l as [|x l]; [intros []|]. cbn [join_amp]. intros I. apply in_app_or in I as [I|I]; [right; exists x; split; [now left|exact I]|].
  apply in_flat_map in I as (y & Iy & [<-|I]); [now left|right; exists y; split; [now right|exact I]].
Qed.
Lemma encode_chars l c : In c (encode_query l) -> qchar c || among "=&" c = true.
Proof.
  unfold encode_query. intros I. apply join_chars in I as [->|(s & Is & I)]; [reflexivity|]. apply in_map_iff in Is as (kv & <- & _).
  apply pair_chars in I. apply Bool.orb_true_iff in I as [I|I]; [now rewrite I|]. apply byte_eqb_eq in I. now subst.
Qed.
Lemma encode_free l c : qchar c || among "=&" c = false -> ~ In c (encode_query l).
Proof. intros H I. apply encode_chars in I. congruence. Qed.
Lemma driver_encode l : driver_params (encode_query l) = map (fun kv => (query_escape (fst kv), query_escape (snd kv))) (sort_pairs l).
Proof.
  unfold encode_query, driver_params. set (ps := sort_pairs l). clearbody ps. change (fun kv : bytes * bytes => query_escape (fst kv) ++ x3d :: query_escape (snd kv)) with pair_text.
  destruct ps as [|p ps]; [reflexivity|]. rewrite split_join.
  - rewrite flat_map_concat_map, map_map. rewrite <- flat_map_concat_map. set (l' := p :: ps). clearbody l'. clear. induction l' as [|kv l' IH]; [reflexivity|].
    cbn [flat_map map]. rewrite IH. unfold pair_text at 1. rewrite split_first_at; [reflexivity|]. intros I. apply query_chars in I. discriminate.
  - discriminate.
  - apply Forall_forall. intros s I. apply in_map_iff in I as (kv & <- & _). intros J. apply pair_chars in J. discriminate.
Qed.
(** What the driver gets for the values [l] *)
Definition params_of (l : pairs) (ps : pairs) : Prop := exists l', Permutation l l' /\
  Forall2 (fun kv p => url_unescape true (fst p) = Some (fst kv) /\ url_unescape true (snd p) = Some (snd kv) /\
    (forallb unreserved (fst kv) = true -> fst p = fst kv) /\ (forallb unreserved (snd kv) = true -> snd p = snd kv)) l' ps.
Lemma params_encode l : params_of l (driver_params (encode_query l)).
Proof.
  exists (sort_pairs l). split; [apply sort_pairs_perm|]. rewrite driver_encode. set (ps := sort_pairs l). clearbody ps. induction ps as [|kv ps IH]; cbn [map]; constructor; [|exact IH].
  cbn [fst snd]. repeat split; auto using query_back, query_plain.
Qed.

(** ** The text for sql.Open *)
Definition clean (s : bytes) : Prop := forall c, In c s -> (32 <= Byte.to_N c)%N /\ c <> x7f /\ c <> x23 /\ c <> x3f.
Lemma clean_app a b : clean (a ++ b) <-> clean a /\ clean b.
Proof.
  unfold clean. split; [intros H; split; intros c I; apply H, in_or_app; auto|]. intros [A B] c I. apply in_app_or in I as [I|I]; auto.
Qed.
Lemma clean_cons a b : clean (a :: b) <-> clean [a] /\ clean b.
Proof. change (a :: b) with ([a] ++ b). apply clean_app. Qed.
Lemma clean_control s : clean s -> existsb control s = false.
Proof.
  intros C. apply Bool.not_true_is_false. intros E. apply existsb_exists in E as (c & I & E). destruct (C c I) as (A & B & _ & _). unfold control in E.
  apply Bool.orb_true_iff in E as [E|E]; [apply N.ltb_lt in E; lia|]. apply byte_eqb_eq in E. congruence.
Qed.
Lemma clean_hash s : clean s -> ~ In x23 s.
Proof. intros C I. now destruct (C _ I) as (_ & _ & H & _). Qed.
Lemma clean_mark s : clean s -> ~ In x3f s.
Proof. intros C I. now destruct (C _ I) as (_ & _ & _ & H). Qed.
Definition scheme_like (s : bytes) : Prop := exists c r, s = c :: r /\ within 65 90 c || within 97 122 c = true /\ Forall (fun d => alnum d || among "+-." d = true) r.
Lemma colon_no_scheme : within 65 90 x3a || within 97 122 x3a = false /\ within 48 57 x3a || among "+-." x3a = false.
Proof. split; reflexivity. Qed.
Lemma scheme_run r rest whole : forall acc, acc <> [] -> Forall (fun d => alnum d || among "+-." d = true) r ->
  scheme_from acc (r ++ x3a :: rest) whole = Some (acc ++ r, rest).
Proof.
  induction r as [|d r IH]; intros acc N F.
  - cbn [app scheme_from]. destruct colon_no_scheme as [-> ->]. change (Byte.eqb x3a x3a) with true. cbv iota. destruct acc; [congruence|]. now rewrite app_nil_r.
  - inversion F as [|? ? Fd Fr]; subst. cbn [app scheme_from]. rewrite IH by (try exact Fr; destruct acc; discriminate). rewrite <- app_assoc. cbn [app].
    destruct (within 65 90 d || within 97 122 d) eqn:L; [reflexivity|].
    assert (D : within 48 57 d || among "+-." d = true).
    { unfold alnum in Fd. destruct (within 48 57 d), (within 65 90 d), (within 97 122 d); cbn in *; auto; discriminate. }
    rewrite D. destruct acc; [congruence|reflexivity].
Qed.
Lemma scheme_found u rest : scheme_like u -> get_scheme (u ++ x3a :: rest) = Some (u, rest).
Proof.
  intros (c & r & -> & L & F). unfold get_scheme. cbn [app scheme_from]. rewrite L. rewrite scheme_run by (try exact F; discriminate). reflexivity.
Qed.
Lemma scheme_none s1 d s2 whole : ~ In x3a s1 -> alnum d || among "+-.:" d = false -> forall acc, scheme_from acc (s1 ++ d :: s2) whole = Some ([], whole).
Proof.
  intros N D. induction s1 as [|c s1 IH]; intros acc.
  - destruct d; try discriminate D; reflexivity.
  - cbn [app scheme_from]. rewrite !IH by (intros I; apply N; now right). destruct (within 65 90 c || within 97 122 c); [reflexivity|].
    destruct (within 48 57 c || among "+-." c); [now destruct (beqb acc [])|].
    rewrite eqb_no; [reflexivity|]. intros ->. apply N. now left.
Qed.
Lemma beqb_false a b : a <> b -> beqb a b = false.
Proof. intros H. apply Bool.not_true_is_false. intros E. now apply beqb_eq in E. Qed.
Lemma beqb_true a : beqb a a = true.
Proof. now apply beqb_eq. Qed.
Definition with_query (s q : bytes) : bytes := s ++ if beqb q [] then [] else x3f :: q.
Definition no_slash_first (s : bytes) : Prop := match s with c :: _ => c <> x2f | [] => False end.
Lemma starts_no s : no_slash_first s -> starts [x2f] s = false.
Proof. destruct s as [|c s]; [intros []|]. intros H. unfold starts. cbn [length firstn]. apply beqb_false. congruence. Qed.
Lemma starts_no2 s : no_slash_first s -> starts [x2f; x2f] s = false.
Proof. destruct s as [|c s]; [intros []|]. intros H. unfold starts. cbn [length firstn]. apply beqb_false. cbn [no_slash_first] in H. destruct s; congruence. Qed.
Lemma open_opaque u rest values check name : scheme_like u -> clean (u ++ x3a :: rest) -> no_slash_first rest ->
  connect (mk_db (u ++ x3a :: rest) name values check) =
  Opens (with_query (map lower_byte u ++ x3a :: rest) (encode_query (match values with Some l => l | None => [] end))).
Proof.
  intros Su C R. unfold connect. cbn [d_dsn d_values].
  assert (P : url_parse (u ++ x3a :: rest) = POk (mk_url (map lower_byte u) rest [] [] [] false [] [])).
  { unfold url_parse. rewrite cut_none by now apply clean_hash. unfold parse_rest. rewrite clean_control by exact C.
    rewrite beqb_false by (destruct Su as (c & r & -> & L & _); cbn [app]; intros [= -> _]; discriminate).
    rewrite scheme_found by exact Su. rewrite split_first_none.
    2: { apply clean_app in C as [_ C]. apply clean_cons in C as [_ C]. now apply clean_mark. }
    rewrite starts_no by exact R. rewrite beqb_false by (destruct Su as (c & r & -> & _); discriminate). reflexivity. }
  rewrite P. cbn [u_scheme u_opaque u_path u_raw_path u_query u_force u_frag u_raw_frag]. change (parse_query []) with (@nil (bytes * bytes)). cbn [app].
  set (q := encode_query _). unfold url_string. cbn [u_scheme u_opaque u_path u_raw_path u_query u_force u_frag u_raw_frag].
  rewrite beqb_false by (destruct Su as (c & r & -> & _); discriminate). rewrite (beqb_false rest) by (intros ->; exact R). rewrite beqb_true, app_nil_r. cbn [orb].
  unfold with_query. rewrite <- !app_assoc. cbn [app]. now destruct (beqb q []).
Qed.
Definition path_safe (c : byte) : bool := path_char c || among "!'()*[]" c.
Lemma path_safe_valid c : path_safe c = true -> among "!$&'()*+,;=:@[]%" c || path_char c = true /\ c <> x25.
Proof. destruct c; try discriminate; intros _; split; try reflexivity; discriminate. Qed.
Lemma unescape_id s : ~ In x25 s -> url_unescape false s = Some s.
Proof.
  induction s as [|c s IH]; [reflexivity|]. intros H. rewrite plain_read; [rewrite IH; [reflexivity|intros I; apply H; now right]| |reflexivity].
  apply eqb_no. intros ->. apply H. now left.
Qed.
Lemma path_kept s : forallb path_safe s = true -> exists raw, decoded path_char s = Some (s, raw) /\ encoded path_char s raw = s.
Proof.
  intros H. rewrite forallb_forall in H. assert (P : ~ In x25 s) by (intros I; apply H in I; discriminate).
  unfold decoded. rewrite unescape_id by exact P. destruct (beqb (url_escape path_char s) s) eqn:E.
  - exists []. split; [reflexivity|]. unfold encoded. change (negb (beqb [] [])) with false. cbn [andb]. now apply beqb_eq.
  - exists s. split; [reflexivity|]. unfold encoded. rewrite unescape_id, beqb_true by exact P.
    assert (V : valid_encoded path_char s = true) by (apply forallb_forall; intros c I; apply (path_safe_valid c), H, I). rewrite V.
    destruct (beqb s []) eqn:N; [|reflexivity]. apply beqb_eq in N. subst s. discriminate.
Qed.
Lemma open_path s1 s2 values check name : ~ In x3a s1 -> clean (s1 ++ x40 :: s2) -> no_slash_first (s1 ++ x40 :: s2) -> forallb path_safe (s1 ++ x40 :: s2) = true ->
  ~ In x3a (fst (cut x2f (s1 ++ x40 :: s2))) ->
  connect (mk_db (s1 ++ x40 :: s2) name values check) = Opens (with_query (s1 ++ x40 :: s2) (encode_query (match values with Some l => l | None => [] end))).
Proof.
  intros N1 C R F Seg. unfold connect. cbn [d_dsn d_values]. destruct (path_kept _ F) as (raw & D & K).
  assert (B : (s1 ++ x40 :: s2) <> b_ "*").
  { intros E. assert (I : In x40 (b_ "*")) by (rewrite <- E; apply in_or_app; right; now left). now destruct I as [I|[]]. }
  assert (P : url_parse (s1 ++ x40 :: s2) = POk (mk_url [] [] (s1 ++ x40 :: s2) raw [] false [] [])).
  { unfold url_parse. rewrite cut_none by now apply clean_hash. unfold parse_rest. rewrite clean_control by exact C.
    rewrite beqb_false by exact B. unfold get_scheme. rewrite scheme_none by (try exact N1; reflexivity). cbn [map].
    rewrite split_first_none by now apply clean_mark. rewrite starts_no, starts_no2 by exact R. rewrite beqb_true. cbn [negb andb].
    rewrite occurs_not by exact Seg. now rewrite D. }
  rewrite P. cbn [u_scheme u_opaque u_path u_raw_path u_query u_force u_frag u_raw_frag]. change (parse_query []) with (@nil (bytes * bytes)). cbn [app].
  set (q := encode_query _). unfold url_string. cbn [u_scheme u_opaque u_path u_raw_path u_query u_force u_frag u_raw_frag].
  rewrite !beqb_true. rewrite (beqb_false _ (b_ "*")) by exact B. cbn [andb]. cbv zeta. rewrite K, occurs_not by exact Seg. cbn [app orb]. rewrite app_nil_r.
  unfold with_query. now destruct (beqb q []).
Qed.
Lemma driver_reads cred net addr db l user password :
  ~ In x28 net -> ~ In x40 net -> ~ In x40 addr -> ~ In x2f db -> ~ In x3f db -> ~ In x25 db ->
  (match split_first x3a cred with Some (u, p) => (u, p) | None => (cred, []) end) = (user, password) ->
  driver_parse (with_query (cred ++ x40 :: net ++ x28 :: addr ++ b_ ")/" ++ db) (encode_query l)) = Some (mk_target user password net addr db (driver_params (encode_query l))).
Proof.
  intros N1 N2 N3 N4 N5 N6 S. unfold with_query. set (tail := if beqb (encode_query l) [] then [] else x3f :: encode_query l).
  assert (T : ~ In x2f (db ++ tail)).
  { intros I. apply in_app_or in I as [I|I]; [now apply N4|]. unfold tail in I. destruct (beqb (encode_query l) []); [destruct I|]. destruct I as [I|I]; [discriminate|].
    revert I. apply encode_free. reflexivity. }
  assert (E : (cred ++ x40 :: net ++ x28 :: addr ++ b_ ")/" ++ db) ++ tail = (cred ++ x40 :: net ++ x28 :: addr ++ [x29]) ++ x2f :: db ++ tail).
  { rewrite <- !app_assoc. cbn [app]. rewrite <- !app_assoc. cbn [app]. rewrite <- !app_assoc. reflexivity. }
  unfold driver_parse. rewrite E, split_last_at by exact T.
  rewrite split_last_at.
  2: { intros I. apply in_app_or in I as [I|[I|I]]; [now apply N2|discriminate|]. apply in_app_or in I as [I|[I|[]]]; [now apply N3|discriminate]. }
  destruct (split_first x3a cred) as [[u p]|]; injection S as <- <-;
    rewrite split_first_at by exact N1; (assert (En : ends_with x29 (addr ++ [x29]) = true) by (unfold ends_with; rewrite rev_app_distr; apply byte_eqb_refl));
    rewrite En, removelast_last;
    (assert (Ct : cut x3f (db ++ tail) = (db, encode_query l)) by
      (unfold tail; destruct (beqb (encode_query l) []) eqn:Q; [apply beqb_eq in Q; rewrite Q, app_nil_r; now apply cut_none|now apply cut_at]));
    rewrite Ct, unescape_id by exact N6; reflexivity.
Qed.

(** ** Configurations *)
Definition own_keys : list bytes := [key_user; key_password; key_host; key_port; key_socket; key_db].
Definition others (m : gomap) : pairs := match m with Some l => filter (fun kv => negb (existsb (beqb (fst kv)) own_keys)) l | None => [] end.
Lemma filter_filter {A} (f g : A -> bool) l : filter f (filter g l) = filter (fun x => g x && f x) l.
Proof. induction l as [|x l IH]; [reflexivity|]. cbn [filter]. destruct (g x); cbn [andb filter]; [destruct (f x); now rewrite IH|exact IH]. Qed.
Lemma others_left m : match delete key_db (strip m) with Some l => l | None => [] end = others m.
Proof.
  destruct m as [l|]; [|reflexivity]. unfold strip, delete, others. cbn [option_map]. rewrite !filter_filter. apply filter_ext. intros kv. cbn [existsb own_keys].
  rewrite !Bool.negb_orb. rewrite Bool.andb_true_r. now rewrite !Bool.andb_assoc.
Qed.
Definition address (host port : bytes) : bytes := if beqb port [] then host else host ++ x3a :: port.
Lemma clean_lit s : forallb (fun c => negb (control c) && negb (Byte.eqb c x23) && negb (Byte.eqb c x3f)) s = true -> clean s.
Proof.
  intros F c I. rewrite forallb_forall in F. specialize (F c I). apply andb_prop in F as [F F3]. apply andb_prop in F as [F1 F2]. apply Bool.negb_true_iff in F1, F2, F3.
  unfold control in F1. apply Bool.orb_false_iff in F1 as [F1 F4]. apply N.ltb_ge in F1. repeat split; [exact F1| | |]; intros ->; discriminate.
Qed.
Lemma settle_values c : d_dsn c = [] -> settle c = mk_db (dsn_text (d_values c)) (val key_db (d_values c)) (delete key_db (strip (d_values c))) (d_check c).
Proof. intros E. unfold settle. rewrite E. reflexivity. Qed.
Lemma reach_password c (v := fun k => val k (d_values c)) :
  d_dsn c = [] -> look key_socket (d_values c) = None -> scheme_like (v key_user) -> no_slash_first (v key_password) ->
  Forall (fun k => clean (v k)) [key_user; key_password; key_host; key_port; key_db] ->
  ~ In x40 (v key_host) -> ~ In x40 (v key_port) -> ~ In x2f (v key_db) -> ~ In x25 (v key_db) ->
  exists ps, params_of (others (d_values c)) ps /\
    reach c = Some (mk_target (map lower_byte (v key_user)) (v key_password) (b_ "tcp") (address (v key_host) (v key_port)) (v key_db) ps).
Proof.
  intros D So Su Pw C H P N M. exists (driver_params (encode_query (others (d_values c)))). split; [apply params_encode|].
  inversion C as [|? ? C1 C']. inversion C' as [|? ? C2 C3']. inversion C3' as [|? ? C3 C4']. inversion C4' as [|? ? C4 C5']. inversion C5' as [|? ? C5 _]. subst. clear C C' C3' C4' C5'.
  unfold reach. rewrite settle_values by exact D. unfold dsn_text. rewrite So.
  change (val key_user (d_values c)) with (v key_user). change (val key_password (d_values c)) with (v key_password). change (val key_host (d_values c)) with (v key_host).
  change (val key_port (d_values c)) with (v key_port). change (val key_db (d_values c)) with (v key_db).
  rewrite (beqb_false (v key_password)) by (intros E; rewrite E in Pw; exact Pw).
  assert (E : v key_user ++ (x3a :: v key_password) ++ b_ "@tcp(" ++ v key_host ++ (if beqb (v key_port) [] then [] else x3a :: v key_port) ++ b_ ")/" ++ v key_db =
              v key_user ++ x3a :: v key_password ++ x40 :: b_ "tcp" ++ x28 :: address (v key_host) (v key_port) ++ b_ ")/" ++ v key_db).
  { unfold address. f_equal. cbn [app]. f_equal. f_equal. change (b_ "@tcp(") with (x40 :: b_ "tcp" ++ [x28]). cbn [app]. rewrite <- !app_assoc. cbn [app].
    destruct (beqb (v key_port) []); [reflexivity|]. now rewrite <- app_assoc. }
  rewrite E. rewrite open_opaque; [|exact Su| |].
  - rewrite others_left. assert (E2 : map lower_byte (v key_user) ++ x3a :: v key_password ++ x40 :: b_ "tcp" ++ x28 :: address (v key_host) (v key_port) ++ b_ ")/" ++ v key_db =
      (map lower_byte (v key_user) ++ x3a :: v key_password) ++ x40 :: b_ "tcp" ++ x28 :: address (v key_host) (v key_port) ++ b_ ")/" ++ v key_db) by now rewrite <- app_assoc.
    rewrite E2. apply driver_reads; auto.
    + intros I. cbn in I. destruct I as [I|[I|[I|[]]]]; discriminate.
    + intros I. cbn in I. destruct I as [I|[I|[I|[]]]]; discriminate.
    + unfold address. destruct (beqb (v key_port) []); [exact H|]. intros I. apply in_app_or in I as [I|[I|I]]; [now apply H|discriminate|now apply P].
    + now apply clean_mark.
    + rewrite split_first_at; [reflexivity|]. intros I. apply in_map_iff in I as (d & E3 & I). destruct Su as (c0 & r & Eu & L & F). rewrite Eu in I.
      assert (Al : alnum d || among "+-." d = true).
      { destruct I as [<-|I]; [unfold alnum; destruct (within 48 57 c0), (within 65 90 c0), (within 97 122 c0); cbn in *; auto; discriminate|].
        rewrite Forall_forall in F. now apply F. }
      destruct d; try discriminate Al; discriminate E3.
  - apply clean_app. split; [exact C1|]. apply clean_cons. split; [apply clean_lit; reflexivity|]. apply clean_app. split; [exact C2|].
    change (x40 :: b_ "tcp" ++ x28 :: address (v key_host) (v key_port) ++ b_ ")/" ++ v key_db) with (b_ "@tcp(" ++ address (v key_host) (v key_port) ++ b_ ")/" ++ v key_db).
    apply clean_app. split; [apply clean_lit; reflexivity|]. apply clean_app. split.
    + unfold address. destruct (beqb (v key_port) []); [exact C3|]. apply clean_app. split; [exact C3|]. apply clean_cons. split; [apply clean_lit; reflexivity|exact C4].
    + apply clean_app. split; [apply clean_lit; reflexivity|exact C5].
  - destruct (v key_password) as [|p0 pw]; [destruct Pw|exact Pw].
Qed.
(** Without a password: the name has the form user@net(address)/database *)
Lemma reach_plain c user net addr db : d_dsn c = [] -> dsn_text (d_values c) = user ++ x40 :: net ++ x28 :: addr ++ b_ ")/" ++ db ->
  In net [b_ "tcp"; b_ "unix"] -> ~ In x3a user -> ~ In x40 addr -> ~ In x2f db -> no_slash_first (user ++ [x40]) ->
  forallb path_safe user = true -> forallb path_safe addr = true -> forallb path_safe db = true -> ~ In x2f user -> ~ In x3a (fst (cut x2f (addr ++ [x2f]))) ->
  exists ps, params_of (others (d_values c)) ps /\ reach c = Some (mk_target user [] net addr db ps).
Proof.
  intros D T Ne Nu Na Nd R Fu Fa Fd Su Sa. exists (driver_params (encode_query (others (d_values c)))). split; [apply params_encode|].
  unfold reach. rewrite settle_values, T by exact D.
  assert (Nf : ~ In x2f net /\ ~ In x3a net /\ ~ In x28 net /\ ~ In x40 net /\ forallb path_safe net = true).
  { destruct Ne as [<-|[<-|[]]]; repeat split; try reflexivity; intros I; cbn in I; repeat (destruct I as [I|I]; [discriminate|]); destruct I. }
  destruct Nf as (Nf1 & Nf2 & Nf3 & Nf4 & Nf5).
  assert (F : forallb path_safe (user ++ x40 :: net ++ x28 :: addr ++ b_ ")/" ++ db) = true).
  { rewrite forallb_app, Fu. cbn [andb forallb]. rewrite forallb_app, Nf5. cbn [andb forallb]. rewrite forallb_app, Fa. cbn [andb]. rewrite forallb_app, Fd. reflexivity. }
  assert (C : clean (user ++ x40 :: net ++ x28 :: addr ++ b_ ")/" ++ db)).
  { apply clean_lit. apply forallb_forall. intros x I. rewrite forallb_forall in F. specialize (F x I). destruct x; try discriminate F; reflexivity. }
  assert (Q : forall l, forallb path_safe l = true -> ~ In x3f l /\ ~ In x25 l).
  { intros l Fl. rewrite forallb_forall in Fl. split; intros I; apply Fl in I; discriminate. }
  rewrite open_path; auto.
  - rewrite others_left. apply driver_reads; auto; try (now apply Q). now rewrite split_first_none.
  - destruct user; exact R.
  - intros I. assert (E : fst (cut x2f (user ++ x40 :: net ++ x28 :: addr ++ b_ ")/" ++ db)) =
      user ++ x40 :: net ++ x28 :: (if occurs x2f addr then fst (cut x2f (addr ++ [x2f])) else addr ++ [x29])).
    { assert (Pre : forall p s, ~ In x2f p -> fst (cut x2f (p ++ s)) = p ++ fst (cut x2f s)).
      { intros p s Np. induction p as [|y p IH]; [reflexivity|]. cbn [app]. unfold cut in *. cbn [split_first]. rewrite eqb_no by (intros ->; apply Np; now left).
        specialize (IH ltac:(intros X; apply Np; now right)). destruct (split_first x2f (p ++ s)) as [[a b]|]; cbn [fst] in *; now rewrite IH. }
      change (user ++ x40 :: net ++ x28 :: addr ++ b_ ")/" ++ db) with (user ++ [x40] ++ net ++ [x28] ++ addr ++ b_ ")/" ++ db).
      rewrite Pre by exact Su. f_equal. rewrite Pre by (intros [X|[]]; discriminate). cbn [app]. f_equal. rewrite Pre by exact Nf1. f_equal.
      change (x28 :: addr ++ b_ ")/" ++ db) with ([x28] ++ addr ++ b_ ")/" ++ db). rewrite Pre by (intros [X|[]]; discriminate). cbn [app]. f_equal.
      destruct (occurs x2f addr) eqn:O.
      - clear - O. assert (I : In x2f addr) by (unfold occurs in O; apply existsb_exists in O as (d & I & E); apply byte_eqb_eq in E; now subst).
        apply in_split in I as (a & b & ->). revert O. induction a as [|y a IH]; [reflexivity|]. intros O. cbn [app]. unfold cut in *. cbn [split_first].
        destruct (Byte.eqb y x2f); [reflexivity|]. cbn [app] in O. unfold occurs in *. cbn [existsb] in O. 
        assert (O' : existsb (fun d => Byte.eqb d x2f) (a ++ x2f :: b) = true) by (apply existsb_exists; exists x2f; split; [apply in_or_app; right; now left|reflexivity]).
        specialize (IH O'). destruct (split_first x2f ((a ++ x2f :: b) ++ b_ ")/" ++ db)) as [[? ?]|], (split_first x2f ((a ++ x2f :: b) ++ [x2f])) as [[? ?]|]; cbn [fst] in *; now rewrite IH.
      - assert (Ni : ~ In x2f addr) by (intros I2; apply occurs_in in I2; congruence). rewrite Pre by exact Ni. reflexivity. }
    rewrite E in I. apply in_app_or in I as [I|[I|I]]; [now apply Nu|discriminate|]. apply in_app_or in I as [I|[I|I]]; [now apply Nf2|discriminate|].
    destruct (occurs x2f addr) eqn:O; [now apply Sa|]. apply in_app_or in I as [I|[I|[]]]; [|discriminate].
    apply Sa. assert (Ni : ~ In x2f addr) by (intros I2; apply occurs_in in I2; congruence). now rewrite cut_at by exact Ni.
Qed.

(** ** What is refused *)
Lemma refuse s : clean s -> no_slash_first s -> (get_scheme s = None \/ get_scheme s = Some ([], s)) -> In x3a (fst (cut x2f s)) -> url_parse s = PErr.
Proof.
  intros C R G I. unfold url_parse. rewrite cut_none by now apply clean_hash. unfold parse_rest. rewrite clean_control by exact C.
  rewrite beqb_false by (intros ->; cbn in I; destruct I as [I|[]]; discriminate).
  destruct G as [-> | ->]; [reflexivity|]. cbn [map]. rewrite split_first_none by now apply clean_mark. rewrite starts_no by exact R. rewrite beqb_true. cbn [negb andb].
  now rewrite occurs_in by exact I.
Qed.
Lemma cut_prefix p s : ~ In x2f p -> fst (cut x2f (p ++ s)) = p ++ fst (cut x2f s).
Proof.
  intros Np. induction p as [|y p IH]; [reflexivity|]. cbn [app]. unfold cut in *. cbn [split_first]. rewrite eqb_no by (intros ->; apply Np; now left).
  specialize (IH ltac:(intros X; apply Np; now right)). destruct (split_first x2f (p ++ s)) as [[a b]|]; cbn [fst] in *; now rewrite IH.
Qed.
Lemma port_refused c (v := fun k => val k (d_values c)) :
  d_dsn c = [] -> look key_socket (d_values c) = None -> v key_password = [] -> v key_port <> [] ->
  Forall (fun k => clean (v k)) [key_user; key_host; key_port; key_db] -> ~ In x3a (v key_user) -> ~ In x2f (v key_user) -> ~ In x2f (v key_host) ->
  connect (settle c) = BadString.
Proof.
  intros D So Pw Po C N1 N2 N3. inversion C as [|? ? C1 C']. inversion C' as [|? ? C2 C3']. inversion C3' as [|? ? C3 C4']. inversion C4' as [|? ? C4 _]. subst. clear C C' C3' C4'.
  rewrite settle_values by exact D. unfold connect. cbn [d_dsn]. unfold dsn_text. rewrite So.
  change (val key_user (d_values c)) with (v key_user). change (val key_password (d_values c)) with (v key_password). change (val key_host (d_values c)) with (v key_host).
  change (val key_port (d_values c)) with (v key_port). change (val key_db (d_values c)) with (v key_db).
  rewrite Pw, beqb_true, (beqb_false (v key_port)) by exact Po. cbn [app].
  assert (L : forall s, forallb (fun c => negb (control c) && negb (Byte.eqb c x23) && negb (Byte.eqb c x3f)) s = true -> clean s) by exact clean_lit.
  rewrite refuse; [reflexivity| | | |].
  - apply clean_app. split; [exact C1|]. apply clean_app. split; [apply L; reflexivity|]. apply clean_app. split; [exact C2|]. apply clean_cons. split; [apply L; reflexivity|].
    apply clean_app. split; [exact C3|]. apply clean_app. split; [apply L; reflexivity|exact C4].
  - destruct (v key_user) as [|u0 u]; [cbn; discriminate|]. cbn. intros ->. apply N2. now left.
  - right. change (b_ "@tcp(") with (x40 :: b_ "tcp("). cbn [app]. apply scheme_none; [exact N1|reflexivity].
  - rewrite cut_prefix by exact N2. apply in_or_app. right. rewrite cut_prefix by (intros I; cbn in I; repeat (destruct I as [I|I]; [discriminate|]); destruct I).
    apply in_or_app. right. rewrite cut_prefix by exact N3. apply in_or_app. right. unfold cut. cbn [split_first]. change (Byte.eqb x3a x2f) with false. cbv iota.
    destruct (split_first x2f _) as [[a b]|]; now left.
Qed.
Lemma scheme_bad u rest whole : ~ In x3a u -> forall acc, (acc = [] \/ scheme_like acc) ->
  (forall s, s = acc ++ u -> ~ scheme_like s) ->
  scheme_from acc (u ++ x3a :: rest) whole = None \/ scheme_from acc (u ++ x3a :: rest) whole = Some ([], whole).
Proof.
  intros N. induction u as [|d u IH]; intros acc A S.
  - cbn [app scheme_from]. destruct colon_no_scheme as [-> ->]. change (Byte.eqb x3a x3a) with true. cbv iota. destruct (beqb acc []) eqn:E; [now left|]. exfalso.
    destruct A as [->|A]; [discriminate|]. apply (S acc); [now rewrite app_nil_r|exact A].
  - cbn [app scheme_from]. assert (St : forall s, s = (acc ++ [d]) ++ u -> ~ scheme_like s) by (intros s E; apply S; now rewrite E, <- app_assoc).
    assert (N' : ~ In x3a u) by (intros I; apply N; now right). assert (Sn : forall x, alnum x || among "+-." x = true -> scheme_like acc -> scheme_like (acc ++ [x])).
    { intros x Hx (c & r & -> & L & F). exists c, (r ++ [x]). repeat split; auto. apply Forall_app. split; [exact F|]. now constructor. }
    destruct (within 65 90 d || within 97 122 d) eqn:L.
    { apply IH; auto. right. destruct A as [->|A].
      - exists d, []. repeat split; auto.
      - apply Sn; [|exact A]. unfold alnum. destruct (within 48 57 d), (within 65 90 d), (within 97 122 d); cbn in *; auto; discriminate. }
    destruct (within 48 57 d || among "+-." d) eqn:G.
    { destruct (beqb acc []) eqn:E; [now right|]. apply IH; auto. right. destruct A as [->|A]; [discriminate|]. apply Sn; [|exact A].
      unfold alnum. destruct (within 48 57 d), (within 65 90 d), (within 97 122 d); cbn in *; auto. }
    rewrite eqb_no by (intros ->; apply N; now left). now right.
Qed.
Lemma user_refused c (v := fun k => val k (d_values c)) :
  d_dsn c = [] -> look key_socket (d_values c) = None -> v key_password <> [] -> ~ scheme_like (v key_user) ->
  Forall (fun k => clean (v k)) [key_user; key_password; key_host; key_port; key_db] -> ~ In x3a (v key_user) -> ~ In x2f (v key_user) ->
  connect (settle c) = BadString.
Proof.
  intros D So Pw Us C N1 N2. inversion C as [|? ? C1 C']. inversion C' as [|? ? C2 C3']. inversion C3' as [|? ? C3 C4']. inversion C4' as [|? ? C4 C5']. inversion C5' as [|? ? C5 _].
  subst. clear C C' C3' C4' C5'.
  rewrite settle_values by exact D. unfold connect. cbn [d_dsn]. unfold dsn_text. rewrite So.
  change (val key_user (d_values c)) with (v key_user). change (val key_password (d_values c)) with (v key_password). change (val key_host (d_values c)) with (v key_host).
  change (val key_port (d_values c)) with (v key_port). change (val key_db (d_values c)) with (v key_db).
  rewrite (beqb_false (v key_password)) by exact Pw. cbn [app].
  assert (L : forall s, forallb (fun c => negb (control c) && negb (Byte.eqb c x23) && negb (Byte.eqb c x3f)) s = true -> clean s) by exact clean_lit.
  rewrite refuse; [reflexivity| | | |].
  - apply clean_app. split; [exact C1|]. apply clean_cons. split; [apply L; reflexivity|]. apply clean_app. split; [exact C2|]. apply clean_app. split; [apply L; reflexivity|].
    apply clean_app. split; [exact C3|]. apply clean_app. split.
    + destruct (beqb (v key_port) []); [intros x []|]. apply clean_cons. split; [apply L; reflexivity|exact C4].
    + apply clean_app. split; [apply L; reflexivity|exact C5].
  - destruct (v key_user) as [|u0 u]; [cbn; discriminate|]. cbn. intros ->. apply N2. now left.
  - unfold get_scheme. apply scheme_bad; [exact N1|now left|]. intros s ->. exact Us.
  - rewrite cut_prefix by exact N2. apply in_or_app. right. unfold cut. cbn [split_first]. change (Byte.eqb x3a x2f) with false. cbv iota.
    destruct (split_first x2f _) as [[a b]|]; now left.
Qed.

(** ** Connecting again; the order of the map *)
Lemma dsn_not_empty m : dsn_text m <> [].
Proof.
  assert (A : In x40 (dsn_text m)).
  { unfold dsn_text. apply in_or_app. right. destruct (look key_socket m); [now left|]. apply in_or_app. right. now left. }
  intros E. now rewrite E in A.
Qed.
Lemma settle_again c : settle (settle c) = settle c.
Proof.
  unfold settle at 2. destruct (beqb (d_dsn c) []) eqn:E; [|reflexivity]. unfold settle. rewrite E. cbn [d_dsn]. now rewrite (beqb_false (dsn_text (d_values c))) by apply dsn_not_empty.
Qed.
Definition below (p q : bytes * bytes) : Prop := bcmp (fst p) (fst q) = Lt.
Lemma insert_sorted p l : ~ In (fst p) (map fst l) -> Sorting.Sorted.StronglySorted below l -> Sorting.Sorted.StronglySorted below (insert_pair p l).
Proof.
  induction l as [|q l IH]; intros N S; [constructor; constructor|]. cbn [insert_pair map In] in *. inversion S as [|? ? Sl Fq]; subst. destruct (bcmp (fst p) (fst q)) eqn:E.
  - apply bcmp_eq in E. exfalso. apply N. left. now symmetry.
  - constructor; [exact S|]. constructor; [exact E|]. rewrite Forall_forall in *. intros r I. unfold below in *. apply (bcmp_trans _ (fst q)); auto.
  - constructor; [apply IH; auto|]. apply Forall_forall. intros r I. apply (Permutation_in _ (Permutation_sym (insert_pair_perm p l))) in I. destruct I as [<-|I].
    + unfold below. now apply bcmp_gt.
    + rewrite Forall_forall in Fq. auto.
Qed.
Lemma sort_sorted l : NoDup (map fst l) -> Sorting.Sorted.StronglySorted below (sort_pairs l).
Proof.
  induction l as [|p l IH]; intros N; [constructor|]. inversion N as [|? ? N1 N2]; subst. cbn [sort_pairs fold_right]. apply insert_sorted; [|apply IH; exact N2].
  intros I. apply N1. apply (Permutation_in _ (Permutation_map fst (Permutation_sym (sort_pairs_perm l)))). exact I.
Qed.
Lemma sorted_unique l l' : Sorting.Sorted.StronglySorted below l -> Sorting.Sorted.StronglySorted below l' -> Permutation l l' -> l = l'.
Proof.
  intros S. revert l'. induction S as [|p l S IH F]; intros l' S' P; [now apply Permutation_nil in P|].
  destruct l' as [|q l']; [now apply Permutation_sym, Permutation_nil in P|]. inversion S' as [|? ? S2 F2]; subst.
  assert (E : p = q).
  { assert (Ip : In p (q :: l')) by (apply (Permutation_in _ P); now left). assert (Iq : In q (p :: l)) by (apply (Permutation_in _ (Permutation_sym P)); now left).
    destruct Ip as [Ip|Ip]; [now symmetry|]. destruct Iq as [Iq|Iq]; [exact Iq|]. rewrite Forall_forall in F, F2. apply F in Iq. apply F2 in Ip. unfold below in *.
    exfalso. apply (bcmp_lt_irrefl (fst p)). now apply (bcmp_trans _ (fst q)). }
  subst q. f_equal. apply IH; [exact S2|]. now apply Permutation_cons_inv in P.
Qed.
Lemma sort_perm l l' : NoDup (map fst l) -> Permutation l l' -> sort_pairs l = sort_pairs l'.
Proof.
  intros N P. apply sorted_unique.
  - now apply sort_sorted.
  - apply sort_sorted. apply (Permutation_NoDup (Permutation_map fst P) N).
  - rewrite <- (sort_pairs_perm l), <- (sort_pairs_perm l'). exact P.
Qed.
Lemma filter_perm {A} (f : A -> bool) l l' : Permutation l l' -> Permutation (filter f l) (filter f l').
Proof.
  intros P. induction P; cbn [filter]; [constructor| | |now transitivity (filter f l')].
  - destruct (f x); [now constructor|exact IHP].
  - destruct (f x), (f y); try reflexivity. constructor.
Qed.
Lemma filter_nodup {A} (f : bytes * A -> bool) l : NoDup (map fst l) -> NoDup (map fst (filter f l)).
Proof.
  induction l as [|p l IH]; intros N; [constructor|]. inversion N as [|? ? N1 N2]; subst. cbn [filter]. destruct (f p); [|auto]. cbn [map]. constructor; [|auto].
  intros I. apply N1. apply in_map_iff in I as (q & E & I). apply filter_In in I as [I _]. rewrite <- E. now apply in_map.
Qed.
Lemma connect_perm dsn name check l l' : NoDup (map fst l) -> Permutation l l' ->
  connect (settle (mk_db dsn name (Some l) check)) = connect (settle (mk_db dsn name (Some l') check)).
Proof.
  intros N P. unfold settle. cbn [d_dsn d_values d_check].
  assert (Sort : forall (pre a b : pairs), Permutation a b -> NoDup (map fst a) -> sort_pairs (pre ++ a) = sort_pairs (pre ++ b)).
  { intros pre a b Pab Na. induction pre as [|p pre IH]; [now apply sort_perm|]. cbn [app sort_pairs fold_right]. fold (sort_pairs (pre ++ a)). fold (sort_pairs (pre ++ b)). now rewrite IH. }
  destruct (beqb dsn []).
  - assert (V : forall k, look k (Some l) = look k (Some l')) by (intros k; cbn [look]; now apply find_perm).
    assert (T : dsn_text (Some l) = dsn_text (Some l')) by (unfold dsn_text, val; now rewrite !V).
    rewrite T. unfold connect. cbn [d_dsn d_values]. destruct (url_parse _); try reflexivity. rewrite !others_left. unfold encode_query.
    rewrite (Sort _ (others (Some l)) (others (Some l'))); [reflexivity|unfold others; now apply filter_perm|unfold others; now apply filter_nodup].
  - unfold connect. cbn [d_dsn d_values]. destruct (url_parse _); try reflexivity. unfold encode_query. now rewrite (Sort _ l l').
Qed.
(** ** As the ingest command connects *)
Definition default_params : pairs := [(b_ "interpolateParams", b_ "true"); (b_ "collation", b_ "binary"); (b_ "maxAllowedPacket", b_ "1073741824");
  (b_ "parseTime", b_ "true"); (b_ "transaction_isolation", b_ "'READ-UNCOMMITTED'"); (b_ "autocommit", b_ "true")].
Lemma ingest_values env name path : d_values (new_config [with_db name; with_defaults; with_environment env; with_socket path]) =
  Some ((key_db, name) :: (key_user, match env key_user with Some v => v | None => b_ "root" end) :: (key_password, match env key_password with Some v => v | None => [] end) ::
    (key_host, match env key_host with Some v => v | None => b_ "127.0.0.1" end) :: (key_port, match env key_port with Some v => v | None => [] end) ::
    default_params ++ [(key_socket, path)]).
Proof. reflexivity. Qed.
Lemma ingest_target env name (user := match env (b_ "MYSQL_USER") with Some u => u | None => b_ "root" end) :
  forallb path_safe name = true -> ~ In x2f name -> forallb path_safe user = true -> ~ In x3a user -> ~ In x2f user ->
  reach (new_config [with_db name; with_defaults; with_environment env; with_socket (b_ "/var/run/mysqld/mysqld.sock")]) =
  Some (mk_target user [] (b_ "unix") (b_ "/var/run/mysqld/mysqld.sock") name
    [(b_ "autocommit", b_ "true"); (b_ "collation", b_ "binary"); (b_ "interpolateParams", b_ "true"); (b_ "maxAllowedPacket", b_ "1073741824");
     (b_ "parseTime", b_ "true"); (b_ "transaction_isolation", b_ "%27READ-UNCOMMITTED%27")]).
Proof.
  intros Fn Nn Fu N1 N2. unfold reach. rewrite settle_values by reflexivity. rewrite ingest_values.
  set (l := _ :: _). 
  assert (T : dsn_text (Some l) = user ++ x40 :: b_ "unix" ++ x28 :: b_ "/var/run/mysqld/mysqld.sock" ++ b_ ")/" ++ name) by reflexivity.
  assert (O : others (Some l) = default_params) by reflexivity.
  rewrite T. rewrite open_path; auto.
  - rewrite others_left, O. rewrite driver_reads with (user := user) (password := []); [reflexivity| | | | | | |]; auto.
    + intros I. cbn in I. repeat (destruct I as [I|I]; [discriminate|]). destruct I.
    + intros I. cbn in I. repeat (destruct I as [I|I]; [discriminate|]). destruct I.
    + intros I. cbn in I. repeat (destruct I as [I|I]; [discriminate|]). destruct I.
    + intros I. rewrite forallb_forall in Fn. apply Fn in I. discriminate.
    + intros I. rewrite forallb_forall in Fn. apply Fn in I. discriminate.
    + now rewrite split_first_none.
  - apply clean_lit. apply forallb_forall. intros x I. assert (F : path_safe x = true).
    { apply in_app_or in I as [I|I]; [rewrite forallb_forall in Fu; now apply Fu|]. change (x40 :: b_ "unix" ++ x28 :: b_ "/var/run/mysqld/mysqld.sock" ++ b_ ")/" ++ name) with (b_ "@unix(/var/run/mysqld/mysqld.sock)/" ++ name) in I.
      apply in_app_or in I as [I|I]; [|rewrite forallb_forall in Fn; now apply Fn]. assert (A : forallb path_safe (b_ "@unix(/var/run/mysqld/mysqld.sock)/") = true) by reflexivity.
      rewrite forallb_forall in A. now apply A. }
    destruct x; try discriminate F; reflexivity.
  - destruct user as [|u0 u]; [cbn; discriminate|]. cbn. intros ->. apply N2. now left.
  - rewrite forallb_app, Fu. change (x40 :: b_ "unix" ++ x28 :: b_ "/var/run/mysqld/mysqld.sock" ++ b_ ")/" ++ name) with (b_ "@unix(/var/run/mysqld/mysqld.sock)/" ++ name).
    rewrite forallb_app, Fn. reflexivity.
  - rewrite cut_prefix by exact N2. intros I. apply in_app_or in I as [I|I]; [now apply N1|]. cbn in I. repeat (destruct I as [I|I]; [discriminate|]). destruct I.
Qed.
