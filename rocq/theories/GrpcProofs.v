(** Lemmas for GrpcModel.v. *)
From Coq Require Import Strings.String.
From Verif Require Import Base BaseLemmas UtilModel DbModel LoadModel PolicyModel JsonText JsonTextProofs JsonModel JsonProofs ApiText ApiTextProofs BundleModel.
From Verif Require Import TrieModel ClientModel DomainModel SmtModel ApiModel GrpcModel.
From Verif Require Utf8Proofs.
Local Open Scope list_scope.
Local Notation length := List.length.

(** ** Numbers *)
Lemma varint_read k : forall f n r, (n < 2 ^ (7 * N.of_nat k))%N -> k <= f -> read_varint (S f) (varint (S f) n ++ r) = Some (n, r).
Proof.
  induction k as [|k IH]; intros f n r L K.
  - change (2 ^ (7 * N.of_nat 0))%N with 1%N in L. assert (n = 0%N) by lia. subst n. cbn. rewrite Bool.andb_false_r. reflexivity.
  - cbn [varint]. destruct (N.ltb_spec n 128) as [Sm|G].
    + cbn [app read_varint]. rewrite Utf8Proofs.byte_at_to by lia. destruct (N.ltb_spec n 128); [|lia].
      destruct (Nat.eqb_spec f 0); [lia|]. reflexivity.
    + cbn [app read_varint]. assert (M : (n mod 128 < 128)%N) by (apply N.mod_lt; lia). rewrite Utf8Proofs.byte_at_to by lia.
      assert (Z : (128 + n mod 128 <? 128)%N = false) by (apply N.ltb_ge; apply N.le_add_r). rewrite Z. clear Z. destruct f as [|f]; [lia|].
      rewrite (IH f (n / 128)%N r); [|apply N.div_lt_upper_bound; [lia|]|lia].
      * f_equal. f_equal. pose proof (N.div_mod n 128 ltac:(discriminate)) as D. rewrite (N.add_comm 128), N.add_sub. rewrite N.add_comm. symmetry. exact D.
      * replace (7 * N.of_nat (Datatypes.S k))%N with (7 + 7 * N.of_nat k)%N in L by lia. rewrite N.pow_add_r in L. exact L.
Qed.
Lemma small_read n r : (n < 2 ^ 63)%N -> read_varint most_bytes (varint most_bytes n ++ r) = Some (n, r).
Proof. intros L. apply (varint_read 9 9); [exact L|lia]. Qed.
Lemma varint_some f n : exists c t, varint (S f) n = c :: t.
Proof. cbn [varint]. destruct (n <? 128)%N; eexists; eexists; reflexivity. Qed.
Lemma cut_app a r : cut (length a) (a ++ r) = Some (a, r).
Proof. induction a as [|c a IH]; [reflexivity|]. cbn [length app cut]. rewrite IH. reflexivity. Qed.

(** ** Fields *)
Definition shown (num : N) (b : bytes) : list (N * wire) := match b with [] => [] | _ => [(num, Text b)] end.
Lemma field_read num b r f : (1 <= num < 2 ^ 29)%N -> (blen b < 2 ^ 63)%N -> length (field num b ++ r) <= f -> (forall f', length r <= f' -> read_fields f' r <> None) ->
  forall l, (forall f', length r <= f' -> read_fields f' r = Some l) -> read_fields f (field num b ++ r) = Some (shown num b ++ l).
Proof.
  intros N1 B K _ l R. destruct b as [|c b]; [apply R; exact K|]. set (x := c :: b) in *.
  assert (E : field num x = varint most_bytes (num * 8 + 2) ++ varint most_bytes (blen x) ++ x) by reflexivity.
  rewrite E in K |- *. clear E. rewrite <- !app_assoc in *. destruct (varint_some 9 (num * 8 + 2)) as (t & q & V). change (S 9) with most_bytes in V.
  destruct f as [|f]. { rewrite V in K. cbn in K. lia. }
  assert (S1 : exists y z, varint most_bytes (num * 8 + 2) ++ varint most_bytes (blen x) ++ x ++ r = y :: z) by (rewrite V; eexists; eexists; reflexivity).
  destruct S1 as (y & z & S1). cbn [read_fields]. rewrite S1. rewrite <- S1.
  rewrite small_read. 2: { apply N.lt_le_trans with (2 ^ 29 * 8 + 2)%N; [lia|]. vm_compute. discriminate. }
  replace ((num * 8 + 2) / 8)%N with num by (rewrite N.div_add_l by lia; change (2 / 8)%N with 0%N; lia).
  replace ((num * 8 + 2) mod 8)%N with 2%N by (rewrite N.add_comm, N.mod_add by lia; reflexivity).
  destruct (N.ltb_spec num 1); [lia|]. destruct (N.leb_spec (2 ^ 29) num); [lia|]. cbn [orb].
  unfold read_content. change (2 =? 0)%N with false. change (2 =? 1)%N with false. change (2 =? 2)%N with true. cbv iota.
  rewrite small_read by exact B. destruct (N.ltb_spec (blen (x ++ r)) (blen x)) as [Q|_]. { unfold blen in Q. rewrite app_length in Q. lia. }
  unfold blen at 1. rewrite Nnat.Nat2N.id, cut_app. rewrite R; [reflexivity|].
  rewrite V in K. cbn [app length] in K. rewrite !app_length in K. lia.
Qed.
Lemma read_nil f' : read_fields f' [] = Some [].
Proof. destruct f'; reflexivity. Qed.
(** Fields of all kinds, each with its text *)
Inductive item_text : N * wire -> bytes -> Prop :=
| item_number num n : (1 <= num < 2 ^ 29)%N -> (n < 2 ^ 63)%N -> item_text (num, Number n) (varint most_bytes (num * 8) ++ varint most_bytes n)
| item_eight num b : (1 <= num < 2 ^ 29)%N -> length b = 8 -> item_text (num, Fixed b) (varint most_bytes (num * 8 + 1) ++ b)
| item_bytes num b : (1 <= num < 2 ^ 29)%N -> (blen b < 2 ^ 63)%N -> item_text (num, Text b) (varint most_bytes (num * 8 + 2) ++ varint most_bytes (blen b) ++ b)
| item_four num b : (1 <= num < 2 ^ 29)%N -> length b = 4 -> item_text (num, Fixed b) (varint most_bytes (num * 8 + 5) ++ b).
Lemma item_read num k body c r f l : (1 <= num < 2 ^ 29)%N -> (k < 8)%N -> read_content k (body ++ r) = Some (c, r) ->
  length (varint most_bytes (num * 8 + k) ++ body ++ r) <= f -> (forall f', length r <= f' -> read_fields f' r = Some l) ->
  read_fields f (varint most_bytes (num * 8 + k) ++ body ++ r) = Some ((num, c) :: l).
Proof.
  intros N1 K8 C K R. destruct (varint_some 9 (num * 8 + k)) as (t & q & V). change (S 9) with most_bytes in V.
  destruct f as [|f]. { rewrite V in K. cbn in K. lia. }
  assert (S1 : exists y z, varint most_bytes (num * 8 + k) ++ body ++ r = y :: z) by (rewrite V; eexists; eexists; reflexivity).
  destruct S1 as (y & z & S1). cbn [read_fields]. rewrite S1. rewrite <- S1.
  rewrite small_read. 2: { apply N.lt_le_trans with (2 ^ 29 * 8 + 8)%N; [lia|]. vm_compute. discriminate. }
  replace ((num * 8 + k) / 8)%N with num by (rewrite N.div_add_l by lia; rewrite N.div_small by exact K8; lia).
  replace ((num * 8 + k) mod 8)%N with k by (rewrite N.add_comm, N.mod_add by lia; rewrite N.mod_small by exact K8; reflexivity).
  destruct (N.ltb_spec num 1); [lia|]. destruct (N.leb_spec (2 ^ 29) num); [lia|]. cbn [orb]. rewrite C, R; [reflexivity|].
  rewrite V in K. cbn [app length] in K. rewrite !app_length in K. lia.
Qed.
Theorem items_read fs ts : Forall2 item_text fs ts -> read_message (concat ts) = Some fs.
Proof.
  intros F. unfold read_message. assert (G : forall f, length (concat ts) <= f -> read_fields f (concat ts) = Some fs); [|apply G; lia].
  induction F as [|x t fs ts I F IH]; intros f K; [apply read_nil|]. cbn [concat] in *. destruct I as [num n N1 N2|num b N1 L|num b N1 L|num b N1 L]; rewrite <- ?app_assoc in *.
  - rewrite <- (N.add_0_r (num * 8)) in *. apply item_read; [exact N1|reflexivity| |exact K|exact IH]. unfold read_content. cbn [N.eqb]. rewrite small_read by exact N2. reflexivity.
  - apply item_read; [exact N1|reflexivity| |exact K|exact IH]. unfold read_content. cbn [N.eqb Pos.eqb]. rewrite <- L, cut_app. reflexivity.
  - rewrite (app_assoc (varint most_bytes (blen b))) in *. apply item_read; [exact N1|reflexivity| |exact K|exact IH]. rewrite <- app_assoc. unfold read_content. cbn [N.eqb Pos.eqb].
    rewrite small_read by exact L. destruct (N.ltb_spec (blen (b ++ concat ts)) (blen b)) as [Q|_]. { unfold blen in Q. rewrite app_length in Q. lia. }
    unfold blen at 1. rewrite Nnat.Nat2N.id, cut_app. reflexivity.
  - apply item_read; [exact N1|reflexivity| |exact K|exact IH]. unfold read_content. cbn [N.eqb Pos.eqb]. rewrite <- L, cut_app. reflexivity.
Qed.
Lemma one_read num b f : (1 <= num < 2 ^ 29)%N -> (blen b < 2 ^ 63)%N -> length (field num b) <= f -> read_fields f (field num b) = Some (shown num b).
Proof.
  intros A B K. rewrite <- (app_nil_r (field num b)), (field_read num b [] f A B) with (l := []).
  - now rewrite app_nil_r.
  - now rewrite app_nil_r.
  - intros f' _. rewrite read_nil. discriminate.
  - intros f' _. apply read_nil.
Qed.
Lemma utf8_iff s : utf8 s = true <-> valid_utf8 s.
Proof.
  unfold utf8, valid_utf8. rewrite forallb_forall. split.
  - intros A c I. specialize (A _ I). discriminate.
  - intros A p I. destruct p as [c|ch|c]; [reflexivity|reflexivity|]. exfalso. exact (A c I).
Qed.
Lemma texts_shown num m b : texts num (shown m b) = match b with [] => [] | _ => if (m =? num)%N then [b] else [] end.
Proof. destruct b as [|c b]; [reflexivity|]. cbn. destruct (m =? num)%N; reflexivity. Qed.
Lemma texts_app num l l' : texts num (l ++ l') = texts num l ++ texts num l'.
Proof. apply flat_map_app. Qed.
Theorem request_read name s : (blen name < 2 ^ 63)%N -> request name = Some s -> read_request s = Some name.
Proof.
  intros B E. unfold request in E. destruct (utf8 name) eqn:U; [|discriminate]. injection E as <-.
  unfold read_request, read_message. rewrite one_read; [|split; [discriminate|reflexivity]|exact B|lia]. cbn [obind]. rewrite texts_shown. destruct name as [|c b]; [reflexivity|].
  change (1 =? 1)%N with true. cbv iota. cbn [forallb last]. rewrite U. reflexivity.
Qed.
Theorem reply_read name proof s : (blen name < 2 ^ 63)%N -> (blen proof < 2 ^ 63)%N -> reply_message name proof = Some s -> read_reply s = Some (name, proof).
Proof.
  intros B1 B2 E. unfold reply_message in E. destruct (utf8 name) eqn:U; [|discriminate]. injection E as <-.
  unfold read_reply, read_message. rewrite (field_read 1 name (field 2 proof) _ ltac:(split; [discriminate|reflexivity]) B1 (le_n _)) with (l := shown 2 proof).
  - cbn [obind]. rewrite !texts_app, !texts_shown. destruct name as [|c b], proof as [|d q]; try reflexivity;
      change (1 =? 1)%N with true; change (2 =? 1)%N with false; change (1 =? 2)%N with false; change (2 =? 2)%N with true; cbv iota; cbn [app forallb last]; rewrite U; reflexivity.
  - intros f' K. rewrite one_read; [discriminate|split; [discriminate|reflexivity]|exact B2|exact K].
  - intros f' K. apply one_read; [split; [discriminate|reflexivity]|exact B2|exact K].
Qed.

(** ** The text *)
Theorem proofs_read l : Forall answer_ok l -> read_proofs (proofs_text l) = Some (map Some l).
Proof.
  intros F. unfold read_proofs, proofs_text. rewrite parse_print.
  - cbn [obind read_struct]. apply (reads_one proofs_table _ (fun s => s) (read_list (read_pointer answer_table zero_answer) None) (fun x _ => x)); [reflexivity|reflexivity|].
    cbn [read_list]. rewrite <- (map_id (map answer_json l)). rewrite map_id. assert (E : map answer_json l = map (fun x => match x with Some a => answer_json a | None => JNull end) (map Some l)) by (rewrite map_map; reflexivity).
    rewrite E. clear E. apply read_elements_ok. induction F as [|a l A F IH]; constructor; [|exact IH].
    change (option_map Some (read_struct answer_table zero_answer (answer_json a)) = Some (Some a)). rewrite read_answer by exact A. reflexivity.
  - apply ok_obj. constructor; [|constructor]. split; [apply raw_simple; reflexivity|]. apply ok_arr. apply Forall_forall. intros v I. apply in_map_iff in I. destruct I as (a & <- & _). apply ok_answer_json.
Qed.

(** ** The exchange *)
Theorem exchange recv run name : (recv < 2 ^ 63)%N -> valid_utf8 name -> (blen (field 1 name) <= recv)%N ->
  grpc_proofs recv run name =
    match run name with
    | Ok t => if (recv <? blen (field 1 name ++ field 2 t))%N then Failed else match read_proofs t with Some l => Got l | None => Failed end
    | Err => Failed
    | Panic => Ended
    end.
Proof.
  intros R V B. assert (U : utf8 name = true) by now apply utf8_iff.
  assert (Bn : forall num x, (blen x <= blen (field num x))%N).
  { intros num x. unfold blen. destruct x as [|c x]; [cbn; lia|]. unfold field. rewrite !app_length. lia. }
  assert (B1 : (blen name < 2 ^ 63)%N) by (specialize (Bn 1%N name); lia).
  assert (Q : request name = Some (field 1 name)) by (unfold request; now rewrite U).
  unfold grpc_proofs. rewrite Q. unfold handle. destruct (N.ltb_spec recv (blen (field 1 name))); [lia|].
  rewrite (request_read name _ B1 Q). destruct (run name) as [t| |]; [|reflexivity|reflexivity].
  assert (P : reply_message name t = Some (field 1 name ++ field 2 t)) by (unfold reply_message; now rewrite U). rewrite P.
  destruct (N.ltb_spec recv (blen (field 1 name ++ field 2 t))) as [_|L]; [reflexivity|].
  rewrite (reply_read name t _ B1); [reflexivity| |exact P]. specialize (Bn 2%N t). unfold blen in *. rewrite app_length in L. lia.
Qed.
Theorem bad_name recv run name : ~ valid_utf8 name -> grpc_proofs recv run name = Failed.
Proof. intros V. unfold grpc_proofs, request. destruct (utf8 name) eqn:U; [|reflexivity]. now apply utf8_iff in U. Qed.

(** ** The two texts of one chain *)
Lemma pointers l : read_elements (read_pointer answer_table zero_answer) None [] (map answer_json l) =
  option_map (map Some) (read_elements (read_struct answer_table) zero_answer [] (map answer_json l)).
Proof.
  induction l as [|a l IH]; [reflexivity|]. cbn [map read_elements hd tl]. rewrite IH.
  change (read_pointer answer_table zero_answer None (answer_json a)) with (option_map Some (read_struct answer_table zero_answer (answer_json a))).
  destruct (read_struct answer_table zero_answer (answer_json a)) as [x|]; [|reflexivity]. cbn [option_map obind].
  destruct (read_elements (read_struct answer_table) zero_answer [] (map answer_json l)); reflexivity.
Qed.
Lemma ok_answers l : json_ok (JArr (map answer_json l)).
Proof. apply ok_arr. apply Forall_forall. intros v I. apply in_map_iff in I. destruct I as (a & <- & _). apply ok_answer_json. Qed.
Theorem same_chain l : read_proofs (proofs_text l) = option_map (map Some) (read_chain (chain_text l)).
Proof.
  unfold read_proofs, proofs_text, read_chain, chain_text. rewrite parse_line by apply ok_answers. rewrite parse_print.
  2: { apply ok_obj. constructor; [|constructor]. split; [apply raw_simple; reflexivity|apply ok_answers]. }
  cbn [obind read_struct read_list]. pose proof (pointers l) as P.
  destruct (read_elements (read_struct answer_table) zero_answer [] (map answer_json l)) as [x|] eqn:E; cbn [option_map] in P |- *.
  - apply (reads_one proofs_table _ (fun s => s) (read_list (read_pointer answer_table zero_answer) None) (fun x _ => x)); [reflexivity|reflexivity|exact P].
  - cbn [read_members]. change (unquote (list_byte_of_string "Proofs")) with (Some (list_byte_of_string "Proofs")). cbn [obind].
    change (JsonModel.entry_of (list_byte_of_string "Proofs") proofs_table) with (Some (snd (JsonModel.entry (list_byte_of_string "Proofs") (fun s => s) (read_list (read_pointer answer_table zero_answer) None) (fun (x : list (option answer)) (_ : list (option answer)) => x)))).
    unfold JsonModel.entry. cbn [snd read_list]. rewrite P. reflexivity.
Qed.
Lemma text_length l : length (proofs_text l) = length (chain_text l) + 10.
Proof.
  unfold proofs_text, chain_text, line. rewrite print_obj. set (v := JArr (map answer_json l)). change (commas (map member [(list_byte_of_string "Proofs", v)])) with (member (list_byte_of_string "Proofs", v)).
  clearbody v. cbn [length]. rewrite !app_length. unfold member. cbn [fst snd]. generalize (print v). intros t. cbn. rewrite ?app_length. cbn. lia.
Qed.
Lemma varint_length f : forall n, length (varint f n) <= f.
Proof. induction f as [|f IH]; intros n; [cbn; lia|]. cbn [varint]. destruct (n <? 128)%N; cbn [length]; [lia|]. specialize (IH (n / 128)%N). lia. Qed.
Lemma tag_length num : (num < 16)%N -> length (varint most_bytes (num * 8 + 2)) = 1.
Proof. intros L. unfold most_bytes. cbn [varint]. destruct (N.ltb_spec (num * 8 + 2) 128); [reflexivity|lia]. Qed.
Lemma field_length num b : (num < 16)%N -> length b <= length (field num b) <= length b + 11.
Proof.
  intros L. destruct b as [|c b]; [cbn; lia|]. unfold field. rewrite !app_length, tag_length by exact L. pose proof (varint_length most_bytes (blen (c :: b))) as V. unfold most_bytes in V at 2. lia.
Qed.

(** The same as over HTTP, if the messages are not too long *)
Theorem same_answer recv H psl root d k rlimit sig name : (recv < 2 ^ 63)%N -> valid_utf8 name -> root = load_root k ->
  (N.of_nat (length name + match api_proof H psl d k rlimit sig name with Body b => length b | _ => 0 end + 32) <= recv)%N ->
  grpc_proofs recv (query_map_entries H psl root d k rlimit sig) name =
    match api_proof H psl d k rlimit sig name with
    | Body b => match read_chain b with Some l => Got (map Some l) | None => Failed end
    | BadRequest => Failed
    | Closed => Ended
    end.
Proof.
  intros R V -> K. pose proof (field_length 1 name ltac:(reflexivity)) as L1.
  rewrite exchange by (first [assumption|unfold blen; lia]). unfold query_map_entries, api_proof in *.
  destruct (fst (get_proof psl H (fun id => H (snd (entry_of d id))) rlimit (load_root k) name (new_trie k))) as [rs| |]; [|reflexivity|reflexivity].
  set (x := map (fill d sig) rs) in *. pose proof (field_length 2 (proofs_text x) ltac:(reflexivity)) as L2. pose proof (text_length x) as T.
  destruct (N.ltb_spec recv (blen (field 1 name ++ field 2 (proofs_text x)))) as [Q|_]. { unfold blen in Q. rewrite app_length in Q. lia. }
  rewrite same_chain. destruct (read_chain (chain_text x)); reflexivity.
Qed.
Theorem too_long recv H psl root d k rlimit sig name b : (recv < 2 ^ 63)%N -> root = load_root k -> api_proof H psl d k rlimit sig name = Body b ->
  (recv <= N.of_nat (length b))%N -> grpc_proofs recv (query_map_entries H psl root d k rlimit sig) name = Failed.
Proof.
  intros R -> E K. destruct (utf8 name) eqn:U; [|unfold grpc_proofs, request; now rewrite U].
  destruct (N.leb_spec (blen (field 1 name)) recv) as [B|B].
  - apply utf8_iff in U. rewrite exchange by assumption. unfold query_map_entries, api_proof in *.
    destruct (fst (get_proof psl H (fun id => H (snd (entry_of d id))) rlimit (load_root k) name (new_trie k))) as [rs| |]; [|discriminate|discriminate].
    injection E as <-. set (x := map (fill d sig) rs) in *. pose proof (field_length 2 (proofs_text x) ltac:(reflexivity)) as L2. pose proof (text_length x) as T.
    destruct (N.ltb_spec recv (blen (field 1 name ++ field 2 (proofs_text x)))) as [_|Q]; [reflexivity|]. unfold blen in Q. rewrite app_length in Q. lia.
  - unfold grpc_proofs, request. rewrite U. unfold handle. destruct (N.ltb_spec recv (blen (field 1 name))); [reflexivity|lia].
Qed.
