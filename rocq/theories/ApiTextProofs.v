(** Proofs about ApiText: the texts read back, the parameter ids. *)
From Coq Require Import Strings.String.
From Verif Require Import Base BaseLemmas UtilModel UtilDuration DbModel LoadModel LoadProofs PolicyModel JsonText JsonTextProofs JsonParse JsonModel JsonProofs JsonRead ApiText.
Local Open Scope list_scope.
Local Notation b_ s := (list_byte_of_string s%string).

(** ** Values *)
Lemma read_slice_json old s : read_slice old (slice_json s) = Some s.
Proof. destruct s as [b|]; [apply read_slice_b64|reflexivity]. Qed.
Lemma ok_slice_json s : json_ok (slice_json s).
Proof. destruct s as [b|]; [apply b64_raw|exact I]. Qed.
Lemma read_byte_num o b : read_byte o (JNum (dec_N (Byte.to_N b))) = Some b.
Proof. destruct b; reflexivity. Qed.
Lemma array_elements a : forall old, length old = length a ->
  read_array_elements old (map (fun b => JNum (dec_N (Byte.to_N b))) a) = Some a.
Proof.
  induction a as [|b a IH]; intros [|o old] L; try discriminate L; [reflexivity|]. cbn [map read_array_elements]. rewrite read_byte_num. cbn [obind].
  rewrite IH by (cbn in L; lia). reflexivity.
Qed.
Lemma read_array_json old a : length old = length a -> read_array old (array_json a) = Some a.
Proof. apply array_elements. Qed.
Lemma num_byte b : num_ok (dec_N (Byte.to_N b)).
Proof.
  pose proof (num_dec (Z.of_N (Byte.to_N b))) as D. unfold dec_Z in D. destruct (Z.ltb_spec (Z.of_N (Byte.to_N b)) 0); [lia|]. now rewrite N2Z.id in D.
Qed.
Lemma ok_array_json a : json_ok (array_json a).
Proof. apply ok_arr. apply Forall_forall. intros v I. apply in_map_iff in I. destruct I as (b & <- & _). apply num_byte. Qed.
Lemma elements_slices l : read_elements read_slice None [] (map slice_json l) = Some l.
Proof. apply read_elements_ok. induction l as [|s l IH]; constructor; [apply read_slice_json|exact IH]. Qed.
Lemma ok_slices l : json_ok (JArr (map slice_json l)).
Proof. apply ok_arr. apply Forall_forall. intros v I. apply in_map_iff in I. destruct I as (s & <- & _). apply ok_slice_json. Qed.

(** ** Structures *)
Definition array_ok (a : bytes) : Prop := length a = 32.
Definition entry_ok (e : entry_fields) : Prop :=
  valid_utf8 (e_name e) /\ array_ok (e_id e) /\ array_ok (e_value e) /\ array_ok (e_certs_id e) /\ array_ok (e_pols_id e).
Definition answer_ok (a : answer) : Prop :=
  match a_entry a with Some e => entry_ok e | None => True end /\ int64 (p_type (a_poi a)) = true.
Ltac api_state := unfold zero_entry, zero_poi, zero_answer, with_e_name, with_e_id, with_e_value, with_e_certs_id, with_e_certs, with_e_pols_id, with_e_pols,
    with_p_type, with_p_path, with_p_root, with_p_key, with_p_value, with_a_entry, with_a_poi, with_a_sig;
  cbn [e_name e_id e_value e_certs_id e_certs e_pols_id e_pols p_type p_path p_root p_key p_value a_entry a_poi a_sig].
Ltac one g rd w := match goal with |- reads ?t (?x :: ?y :: ?l) _ _ => change (x :: y :: l) with ([x] ++ y :: l); eapply reads_app end;
  [eapply (reads_one _ _ g rd w); [reflexivity|reflexivity|]|]; api_state.
Lemma read_entry e : entry_ok e -> read_struct entry_table zero_entry (entry_json e) = Some e.
Proof.
  intros (V & L1 & L2 & L3 & L4). unfold array_ok in *.
  assert (A : forall a : bytes, length a = 32 -> read_array zero_array (array_json a) = Some a) by (intros a La; apply read_array_json; now rewrite La).
  unfold entry_json. cbn [read_struct]. match goal with |- read_members ?t ?l ?s = Some ?x => change (reads t l s x) end. destruct e as [a1 a2 a3 a4 a5 a6 a7]. api_state. cbn [e_name e_id e_value e_certs_id e_pols_id] in *.
  one e_name read_string with_e_name. { cbn [read_string]. rewrite unquote_escape. rewrite repair_valid by exact V. reflexivity. }
  one e_id read_array with_e_id. { apply A; assumption. }
  one e_value read_array with_e_value. { apply A; assumption. }
  one e_certs_id read_array with_e_certs_id. { apply A; assumption. }
  one e_certs read_slice with_e_certs. { apply read_slice_json. }
  one e_pols_id read_array with_e_pols_id. { apply A; assumption. }
  apply (reads_one _ _ e_pols read_slice with_e_pols); [reflexivity|reflexivity|apply read_slice_json].
Qed.
Lemma read_poi p : int64 (p_type p) = true -> read_struct poi_table zero_poi (poi_json p) = Some p.
Proof.
  intros I. unfold poi_json. cbn [read_struct]. match goal with |- read_members ?t ?l ?s = Some ?x => change (reads t l s x) end. destruct p as [a1 a2 a3 a4 a5]. api_state. cbn [p_type] in I.
  one p_type read_int with_p_type. { cbn [read_int]. rewrite int_of_dec. cbn [obind]. rewrite I. reflexivity. }
  one p_path read_path with_p_path. { destruct a2 as [l|]; [|reflexivity]. cbn [read_path]. rewrite elements_slices. reflexivity. }
  one p_root read_slice with_p_root. { apply read_slice_json. }
  one p_key read_slice with_p_key. { apply read_slice_json. }
  apply (reads_one _ _ p_value read_slice with_p_value); [reflexivity|reflexivity|apply read_slice_json].
Qed.
Lemma read_answer a : answer_ok a -> read_struct answer_table zero_answer (answer_json a) = Some a.
Proof.
  intros [E I]. unfold answer_json. cbn [read_struct]. match goal with |- read_members ?t ?l ?s = Some ?x => change (reads t l s x) end. destruct a as [a1 a2 a3]. api_state. cbn [a_entry a_poi] in *.
  one a_entry (read_pointer entry_table zero_entry) with_a_entry.
  { destruct a1 as [e|]; [|reflexivity]. transitivity (option_map Some (read_struct entry_table zero_entry (entry_json e))); [reflexivity|]. now rewrite (read_entry e E). }
  one a_poi (read_struct poi_table) with_a_poi. { change (mk_pf 0 None None None None) with zero_poi. now apply read_poi. }
  apply (reads_one _ _ a_sig read_slice with_a_sig); [reflexivity|reflexivity|apply read_slice_json].
Qed.
Lemma ok_entry_json e : json_ok (entry_json e).
Proof.
  apply ok_obj. repeat (apply Forall_cons; [split; [apply raw_simple; reflexivity|first [apply ok_array_json | apply ok_slice_json | apply raw_escape]]|]).
  constructor.
Qed.
Lemma ok_poi_json p : json_ok (poi_json p).
Proof.
  apply ok_obj. destruct p as [a1 a2 a3 a4 a5]. cbn [p_type p_path p_root p_key p_value].
  apply Forall_cons; [split; [apply raw_simple; reflexivity|apply num_dec]|].
  apply Forall_cons; [split; [apply raw_simple; reflexivity|destruct a2 as [l|]; [apply ok_slices|exact I]]|].
  repeat (apply Forall_cons; [split; [apply raw_simple; reflexivity|apply ok_slice_json]|]). constructor.
Qed.
Lemma ok_answer_json a : json_ok (answer_json a).
Proof.
  apply ok_obj. destruct a as [a1 a2 a3]. cbn [a_entry a_poi a_sig].
  apply Forall_cons; [split; [apply raw_simple; reflexivity|destruct a1; [apply ok_entry_json|exact I]]|].
  apply Forall_cons; [split; [apply raw_simple; reflexivity|apply ok_poi_json]|].
  apply Forall_cons; [split; [apply raw_simple; reflexivity|apply ok_slice_json]|]. constructor.
Qed.

(** ** Lines *)
Lemma parse_line v : json_ok v -> parse (line v) = Some v.
Proof.
  intros K. pose proof (parse_print_value v K [] (S (2 * length (print v))) I ltac:(lia)) as E. rewrite app_nil_r in E.
  destruct (parse_prefix (S (2 * length (print v)))) as (P & _ & _). destruct (P _ _ _ E) as (t & T & _ & _ & Q). rewrite app_nil_r in T. subst t.
  unfold parse, line. rewrite (Q [x0a]); [reflexivity|split; [reflexivity|repeat split; reflexivity]|rewrite app_length; lia].
Qed.
Theorem chain_round_trip l : Forall answer_ok l -> read_chain (chain_text l) = Some l.
Proof.
  intros F. unfold read_chain, chain_text. rewrite parse_line.
  - cbn [obind read_list]. apply read_elements_ok. induction F as [|a l A F IH]; constructor; [now apply read_answer|exact IH].
  - apply ok_arr. apply Forall_forall. intros v I. apply in_map_iff in I. destruct I as (a & <- & _). apply ok_answer_json.
Qed.
Theorem payload_round_trip l : read_payloads (payload_text l) = Some l.
Proof. unfold read_payloads, payload_text. rewrite parse_line by apply ok_slices. cbn [obind read_list]. apply elements_slices. Qed.

(** ** Hexadecimal digits *)
(** The digit [c] has the value [n]; both cases of the letters. *)
Definition lower_digits : bytes := b_ "0123456789abcdef".
Definition upper_digits : bytes := b_ "0123456789ABCDEF".
Definition digit_of (c : byte) (n : nat) : Prop := nth_error lower_digits n = Some c \/ nth_error upper_digits n = Some c.
Inductive spells : bytes -> bytes -> Prop :=
| spells_nil : spells [] []
| spells_cons a b x y v s t : digit_of a x -> digit_of b y -> Byte.to_N v = N.of_nat (16 * x + y) -> spells s t -> spells (a :: b :: s) (v :: t).
Lemma hex_value_lt c n : hex_value c = Some n -> (n < 16)%N.
Proof. destruct c; vm_compute; intros E; try discriminate E; injection E as <-; reflexivity. Qed.
Lemma digit_value c n : digit_of c n <-> hex_value c = Some (N.of_nat n).
Proof.
  unfold digit_of, lower_digits, upper_digits. split.
  - cbn [list_byte_of_string]. intros [E|E]; do 16 (destruct n as [|n]; [injection E as <-; reflexivity|]); destruct n; discriminate E.
  - intros E. pose proof (hex_value_lt _ _ E) as B. rewrite <- (Nat2N.id n). generalize dependent (N.of_nat n). intros m E B. clear n.
    destruct c; try discriminate E; injection E as <-; vm_compute; auto.
Qed.
Lemma byte_at_N n v : (n < 256)%N -> byte_at n = v <-> Byte.to_N v = n.
Proof.
  intros B. unfold byte_at. destruct (Byte.of_N n) as [b|] eqn:E.
  - apply Byte.to_of_N in E. split; [intros <-; exact E|]. intros F. rewrite <- F in E. apply byte_N_inj. exact E.
  - exfalso. apply Byte.of_N_None_iff in E. lia.
Qed.
Lemma pairs_ind (P : bytes -> Prop) : P [] -> (forall a, P [a]) -> (forall a b s, P s -> P (a :: b :: s)) -> forall s, P s.
Proof.
  intros H0 H1 H2 s. cut (P s /\ forall a, P (a :: s)); [tauto|]. induction s as [|b s [IH1 IH2]]; [auto|]. split; [apply IH2|]. intros a. apply H2, IH1.
Qed.
Lemma hex_spells s : forall t, hex_decode s = Some t <-> spells s t.
Proof.
  induction s as [|a|a b s IH] using pairs_ind; intros t.
  - cbn. split; [intros [= <-]; constructor|intros S; inversion S; reflexivity].
  - cbn. split; [discriminate|intros S; inversion S].
  - cbn [hex_decode]. split.
    + destruct (hex_value a) as [x|] eqn:A; [|discriminate]. destruct (hex_value b) as [y|] eqn:B; [|discriminate].
      destruct (hex_decode s) as [r|]; [|discriminate]. cbn [obind]. intros [= <-].
      pose proof (hex_value_lt _ _ A). pose proof (hex_value_lt _ _ B).
      apply (spells_cons a b (N.to_nat x) (N.to_nat y)); [apply digit_value; now rewrite N2Nat.id|apply digit_value; now rewrite N2Nat.id| |now apply IH].
      apply byte_at_N; [lia|]. f_equal. lia.
    + intros S. inversion S as [|? ? x y v ? r D1 D2 E S']; subst. apply digit_value in D1, D2. rewrite D1, D2. apply IH in S'. rewrite S'. cbn [obind].
      pose proof (hex_value_lt _ _ D1). pose proof (hex_value_lt _ _ D2). do 2 f_equal. apply byte_at_N; [lia|]. rewrite E. lia.
Qed.
Lemma spells_length s t : spells s t -> length s = 2 * length t.
Proof. intros S. induction S as [|a b x y v s t D1 D2 E S IH]; [reflexivity|]. cbn [length]. lia. Qed.
Lemma spells_app s t s' t' : spells s t -> spells s' t' -> spells (s ++ s') (t ++ t').
Proof. intros S. induction S; intros S'; [exact S'|]. cbn [app]. econstructor; eauto. Qed.
(** The parameter: the ids one after the other *)
Inductive spells_ids : bytes -> list bytes -> Prop :=
| spells_none : spells_ids [] []
| spells_one s id t l : spells s id -> length id = 32 -> spells_ids t l -> spells_ids (s ++ t) (id :: l).
Lemma ids_read text ids : spells_ids text ids -> length text = length ids * id_digits /\ read_ids (length ids) text = Some ids.
Proof.
  intros S. induction S as [|s id t l S L _ [IH1 IH2]]; [split; reflexivity|]. pose proof (spells_length _ _ S) as Ls. rewrite L in Ls.
  split; [rewrite app_length, Ls, IH1; cbn [length]; unfold id_digits; lia|]. cbn [length read_ids].
  replace (firstn id_digits (s ++ t)) with s by (rewrite firstn_app, firstn_all2 by (unfold id_digits; lia); replace (id_digits - length s) with 0 by (unfold id_digits; lia); now rewrite firstn_O, app_nil_r).
  replace (skipn id_digits (s ++ t)) with t by (rewrite skipn_app, skipn_all2 by (unfold id_digits; lia); replace (id_digits - length s) with 0 by (unfold id_digits; lia); reflexivity).
  apply hex_spells in S. rewrite S. cbn [obind]. rewrite IH2. reflexivity.
Qed.
Lemma read_spells n : forall text ids, length text = n * id_digits -> read_ids n text = Some ids -> spells_ids text ids.
Proof.
  induction n as [|n IH]; intros text ids L E; cbn [read_ids] in E.
  - injection E as <-. destruct text; [constructor|discriminate L].
  - destruct (hex_decode (firstn id_digits text)) as [id|] eqn:D; [|discriminate]. cbn [obind] in E.
    destruct (read_ids n (skipn id_digits text)) as [r|] eqn:R; [|discriminate]. cbn [obind] in E. injection E as <-.
    rewrite <- (firstn_skipn id_digits text). apply hex_spells in D. constructor; [exact D| |apply IH; [rewrite skipn_length; lia|exact R]].
    apply spells_length in D. rewrite firstn_length in D. unfold id_digits in *. lia.
Qed.
Lemma spelled text ids : spells_ids text ids <-> length text mod id_digits = 0 /\ read_ids (length text / id_digits) text = Some ids.
Proof.
  split.
  - intros S. destruct (ids_read _ _ S) as [L R]. rewrite L. split; [apply Nat.mod_mul; discriminate|]. rewrite Nat.div_mul by discriminate. exact R.
  - intros [M R]. eapply read_spells; [|exact R]. pose proof (Nat.div_mod (length text) id_digits ltac:(discriminate)). lia.
Qed.
Lemma encode_spells t : spells (hex_encode t) t.
Proof.
  induction t as [|b t IH]; [constructor|]. unfold hex_encode. cbn [flat_map app].
  apply (spells_cons _ _ (N.to_nat (Byte.to_N b / 16)) (N.to_nat (Byte.to_N b mod 16))); [| | |exact IH].
  - apply digit_value. rewrite N2Nat.id. destruct b; reflexivity.
  - apply digit_value. rewrite N2Nat.id. destruct b; reflexivity.
  - rewrite (N.div_mod (Byte.to_N b) 16) at 1 by discriminate. lia.
Qed.
