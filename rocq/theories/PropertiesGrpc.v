(** Property theorems C99: the interface of the map server over gRPC, for the model in GrpcModel.v. *)
From Coq Require Import Strings.String.
From Verif Require JsonText JsonTextProofs JsonModel CmdModel LoadModel LoadProofs.
From Verif Require Import Base BaseLemmas UtilModel ApiText ApiTextProofs DbModel DbTables BundleModel.
From Verif Require Import TrieModel TrieSpec TrieExample TrieRefute ClientModel DomainModel DomainSpec SmtModel SmtProofs PropertiesTrie PropertiesSmt RoundModel RoundProofs PropertiesRound PropertiesDomain ApiModel ApiProofs PropertiesApi GrpcModel GrpcProofs.
Local Open Scope list_scope.
Local Notation b_ s := (list_byte_of_string s%string).
Local Notation length := List.length.

(** * C99. The messages arrive as they were sent: every name and every text of UTF-8, of any length that a program can hold; names that are not
    UTF-8 are never sent. *)
Theorem C99_request name : (N.of_nat (length name) < 2 ^ 63)%N ->
  match request name with Some s => JsonText.valid_utf8 name /\ read_request s = Some name | None => ~ JsonText.valid_utf8 name end.
Proof.
  intros L. destruct (request name) as [s|] eqn:E.
  - split; [|exact (request_read name s L E)]. apply utf8_iff. unfold request in E. destruct (utf8 name); [reflexivity|discriminate].
  - unfold request in E. intros V. apply utf8_iff in V. rewrite V in E. discriminate.
Qed.
Theorem C99_reply name proof : (N.of_nat (length name) < 2 ^ 63)%N -> (N.of_nat (length proof) < 2 ^ 63)%N -> JsonText.valid_utf8 name ->
  exists s, reply_message name proof = Some s /\ read_reply s = Some (name, proof).
Proof.
  intros L1 L2 V. apply utf8_iff in V. exists (field 1 name ++ field 2 proof). assert (E : reply_message name proof = Some (field 1 name ++ field 2 proof)) by (unfold reply_message; now rewrite V).
  split; [exact E|exact (reply_read name proof _ L1 L2 E)].
Qed.
(** Messages with other fields, in any order and of any kind, as a later version of the interface may have them: the last name and the last proof of the
    right kind count, the rest is skipped. [item_text]: a field and its bytes. *)
Theorem C99_unknown fs ts : Forall2 item_text fs ts ->
  let named num := flat_map (fun f => match f with (n, Text b) => if BinNat.N.eqb n num then [b] else [] | _ => [] end) fs in
  (forall x, In x (named 1%N) -> JsonText.valid_utf8 x) ->
  read_request (concat ts) = Some (last (named 1%N) []) /\ read_reply (concat ts) = Some (last (named 1%N) [], last (named 2%N) []).
Proof.
  intros F named V. unfold read_request, read_reply. rewrite (items_read fs ts F). unfold LoadModel.obind.
  assert (U : forallb utf8 (texts 1 fs) = true) by (apply forallb_forall; intros x I; apply utf8_iff, V; exact I).
  rewrite U. split; reflexivity.
Qed.
Example C99_unknown_example : Forall2 item_text [(7%N, Number 300%N); (1%N, Text [x61]); (9%N, Fixed [x01; x02; x03; x04]); (1%N, Number 5%N); (3%N, Fixed [x01; x02; x03; x04; x05; x06; x07; x08]); (1%N, Text [x62])]
    [[x38; xac; x02]; [x0a; x01; x61]; [x4d; x01; x02; x03; x04]; [x08; x05]; [x19; x01; x02; x03; x04; x05; x06; x07; x08]; [x0a; x01; x62]] /\
  read_request (concat [[x38; xac; x02]; [x0a; x01; x61]; [x4d; x01; x02; x03; x04]; [x08; x05]; [x19; x01; x02; x03; x04; x05; x06; x07; x08]; [x0a; x01; x62]]) = Some [x62].
Proof.
  split; [|vm_compute; reflexivity].
  constructor; [apply (item_number 7 300); [split; [discriminate|reflexivity]|reflexivity]|]. constructor; [apply (item_bytes 1 [x61]); [split; [discriminate|reflexivity]|reflexivity]|].
  constructor; [apply (item_four 9 [x01; x02; x03; x04]); [split; [discriminate|reflexivity]|reflexivity]|]. constructor; [apply (item_number 1 5); [split; [discriminate|reflexivity]|reflexivity]|].
  constructor; [apply (item_eight 3 [x01; x02; x03; x04; x05; x06; x07; x08]); [split; [discriminate|reflexivity]|reflexivity]|]. constructor; [apply (item_bytes 1 [x62]); [split; [discriminate|reflexivity]|reflexivity]|]. constructor.
Qed.
(** The text in the reply reads as the chain that was written, and every chain reads the same here as in the text over HTTP. *)
Theorem C99_text l : (Forall answer_ok l -> read_proofs (proofs_text l) = Some (map Some l)) /\
  read_proofs (proofs_text l) = option_map (map Some) (read_chain (chain_text l)).
Proof. split; [exact (proofs_read l)|exact (same_chain l)]. Qed.

(** The answer is that over HTTP, while the saved root is the one that was there when the server was made ([k0]) and the answer fits the limit. *)
Theorem C99_same recv H psl k0 d k rlimit sig name : (recv < 2 ^ 63)%N -> JsonText.valid_utf8 name -> load_root k0 = load_root k ->
  (N.of_nat (length name + match api_proof H psl d k rlimit sig name with Body b => length b | _ => 0 end + 32) <= recv)%N ->
  grpc_proofs recv (query_map_entries H psl (opened k0) d k rlimit sig) name =
    match api_proof H psl d k rlimit sig name with
    | Body b => match read_chain b with Some l => Got (map Some l) | None => Failed end
    | BadRequest => Failed
    | Closed => Ended
    end.
Proof. intros R V E. exact (same_answer recv H psl (opened k0) d k rlimit sig name R V E). Qed.
Theorem C99_name recv run name : ~ JsonText.valid_utf8 name -> grpc_proofs recv run name = Failed.
Proof. exact (bad_name recv run name). Qed.
(** So in every state of the server, a request for a domain none of whose parts is dirty gets one answer per part; each is accepted and lists exactly the
    certificates and policies of the tables for the part, as in C81. *)
Theorem C99_served_partial H limit max_depth size G m d k k0 psl rlimit sig domain parts recv :
  (forall x, length (H x) = HashLength) -> 0 < size -> collision_free H G -> (forall x, G x -> H x <> zero_hash) ->
  server H limit max_depth size (fun _ => hashed_batch H) G m d k -> whole_labels psl -> parse_domain_name psl domain = Some parts ->
  (forall p, In p parts -> ~ In (H p) (map fst (d_dirty d))) -> (recv < 2 ^ 63)%N -> JsonText.valid_utf8 domain -> load_root k0 = load_root k ->
  exists body, api_proof H psl d k rlimit sig domain = Body body /\
  ((N.of_nat (length domain + length body + 32) <= recv)%N ->
   exists l, grpc_proofs recv (query_map_entries H psl (opened k0) d k rlimit sig) domain = Got (map Some l) /\
     Forall2 (fun name a => exists cs ps, lists_of H d name a cs ps) parts l).
Proof.
  intros H1 H2 H3 H4 Hs Hw Hp Hn R V E. destruct (C81_served_partial H limit max_depth size G m d k psl rlimit sig domain parts H1 H2 H3 H4 Hs Hw Hp Hn) as (body & l & E1 & E2 & F).
  exists body. split; [exact E1|]. intros K. exists l. split.
  - rewrite (C99_same recv H psl k0 d k rlimit sig domain R V E) by (rewrite E1; exact K). rewrite E1, E2. reflexivity.
  - clear -F. induction F as [|n a ns l0 (cs & ps & Ha & _) F IH]; constructor; [exists cs, ps; exact Ha|exact IH].
Qed.
Definition four_mib : BinNums.N := 4194304%N.
(** The messages in bytes, and the request for b.a.com of C81: a.com is there, b.a.com is not. *)
Example C99_example :
  request siteA = Some ([x0a; x05] ++ siteA) /\ reply_message siteA [x7b; x7d] = Some ([x0a; x05] ++ siteA ++ [x12; x02; x7b; x7d]) /\
  read_reply ([x12; x01; x41; x18; x96; x01; x0a; x01; x62; x12; x01; x42]) = Some ([x62], [x42]) /\
  server apiH 32 10 3 (chain_batches apiH (fun _ => 0%Z) api_U api_U) exG ex_m1 (cleanup api_coalesced) api_disk /\ JsonText.valid_utf8 asked /\
  match api_proof apiH api_psl (cleanup api_coalesced) api_disk 32 [x07] asked with
  | Body body => (N.of_nat (length asked + length body + 32) <= four_mib)%N
  | _ => False
  end /\
  match grpc_proofs four_mib (query_map_entries apiH api_psl (opened api_disk) (cleanup api_coalesced) api_disk 32 [x07]) asked with
  | Got l => map (option_map (fun a => (option_map e_certs (a_entry a), verify_proof_by_domain apiH (client_view a)))) l
  | _ => []
  end = [Some (Some (Some certA), Ok (PoP, true)); Some (Some None, Ok (PoA, true))].
Proof.
  split; [vm_compute; reflexivity|]. split; [vm_compute; reflexivity|]. split; [vm_compute; reflexivity|]. split; [exact api_server|].
  split; [apply JsonTextProofs.ascii_valid; vm_compute; reflexivity|]. split; [vm_compute; discriminate|]. vm_compute. reflexivity.
Qed.

(** The root is loaded once: a server that was made before the first update answers afterwards, over gRPC, that a.com is absent, and the proof is accepted;
    over HTTP the domain is present. *)
Theorem C99_stale_refuted : exists H psl k0 d k sig name,
  server H 32 10 3 (chain_batches H (fun _ => 0%Z) api_U api_U) exG [] empty_db k0 /\
  server H 32 10 3 (chain_batches H (fun _ => 0%Z) api_U api_U) exG ex_m1 d k /\ d_dirty d = [] /\
  match api_proof H psl d k 32 sig name with
  | Body b => option_map (map (fun a => verify_proof_by_domain H (client_view a))) (read_chain b)
  | _ => None
  end = Some [Ok (PoP, true)] /\
  match grpc_proofs four_mib (query_map_entries H psl (opened k0) d k 32 sig) name with
  | Got l => map (option_map (fun a => (option_map e_certs (a_entry a), verify_proof_by_domain H (client_view a)))) l
  | _ => []
  end = [Some (Some None, Ok (PoA, true))].
Proof.
  exists apiH, api_psl, no_tree, (cleanup api_coalesced), api_disk, [x07], siteA. split; [apply server_start|]. split; [exact api_server|]. split; [reflexivity|].
  split; vm_compute; reflexivity.
Qed.

(** An answer as long as the limit is an error over gRPC. *)
Theorem C99_long recv H psl k0 d k rlimit sig name b : (recv < 2 ^ 63)%N -> load_root k0 = load_root k -> api_proof H psl d k rlimit sig name = Body b ->
  (recv <= N.of_nat (length b))%N -> grpc_proofs recv (query_map_entries H psl (opened k0) d k rlimit sig) name = Failed.
Proof. intros R E. exact (too_long recv H psl (opened k0) d k rlimit sig name b R E). Qed.
(** Whatever the limit, some domain with many certificates gets its answer over HTTP and never over gRPC. *)
Definition many (n : nat) : db := set_pay [(kA, mk_pr (Some (repeat x41 n)) (Some certA) None None)] empty_db.
Definition many_proof := trie_merkle_proof 32 (load_root api_disk) kA (new_trie api_disk).
Definition many_path : list bytes := match many_proof with (Ok (p, _, _, _), _) => p | _ => [] end.
Definition many_key : bytes := match many_proof with (Ok (_, _, pk, _), _) => pk | _ => [] end.
Definition many_value : bytes := match many_proof with (Ok (_, _, _, pv), _) => pv | _ => [] end.
Definition many_response (v : bytes) : response :=
  mk_response (Some (mk_entry siteA kA v)) (mk_poi PoP many_path (Some (load_root api_disk)) many_key many_value).
Lemma many_answer payload : fst (get_proof api_psl apiH payload 32 (load_root api_disk) siteA (new_trie api_disk)) = Ok [many_response (payload kA)].
Proof. vm_compute. reflexivity. Qed.
Lemma commas_in x l : In x l -> length x <= length (JsonText.commas l).
Proof.
  induction l as [|y l IH]; [intros []|]. intros [->|I].
  - destruct l; cbn [JsonText.commas]; [lia|]. rewrite app_length. lia.
  - specialize (IH I). destruct l as [|z l]; [destruct I|]. cbn [JsonText.commas]. rewrite app_length. cbn [length]. cbn [JsonText.commas] in IH. lia.
Qed.
Lemma member_in k v l : In (k, v) l -> length (JsonText.print v) <= length (JsonText.print (JsonText.JObj l)).
Proof.
  intros I. rewrite JsonTextProofs.print_obj. apply (in_map JsonTextProofs.member) in I. apply commas_in in I. unfold JsonTextProofs.member in I at 1. cbn [fst snd] in I.
  cbn [length]. rewrite app_length in I |- *. cbn [length] in I. lia.
Qed.
Lemma slice_long b : length b <= length (JsonText.print (slice_json (Some b))).
Proof. cbn [slice_json JsonText.print]. unfold JsonText.quoted. cbn [length]. rewrite app_length, LoadProofs.b64_length. pose proof (Nat.div_mod (length b + 2) 3 ltac:(discriminate)). pose proof (Nat.mod_upper_bound (length b + 2) 3 ltac:(discriminate)). lia. Qed.
Lemma chain_long a e b : a_entry a = Some e -> e_certs e = Some b -> length b <= length (chain_text [a]).
Proof.
  intros E C. unfold chain_text, line. rewrite app_length, JsonTextProofs.print_arr. cbn [map JsonText.commas length]. rewrite app_length.
  assert (L1 : length b <= length (JsonText.print (entry_json e))).
  { apply Nat.le_trans with (length (JsonText.print (slice_json (e_certs e)))); [rewrite C; apply slice_long|]. unfold entry_json. eapply member_in. right. right. right. right. left. reflexivity. }
  assert (L2 : length (JsonText.print (entry_json e)) <= length (JsonText.print (answer_json a))).
  { unfold answer_json. rewrite E. eapply member_in. left. reflexivity. }
  lia.
Qed.
Theorem C99_large_refuted : forall recv, (recv < 2 ^ 63)%N -> exists H psl d k sig name body l,
  api_proof H psl d k 32 sig name = Body body /\ read_chain body = Some l /\ map (fun a => option_map e_name (a_entry a)) l = [Some name] /\
  grpc_proofs recv (query_map_entries H psl (opened k) d k 32 sig) name = Failed.
Proof.
  intros recv R. set (n := N.to_nat recv). set (a := fill (many n) [x07] (many_response (apiH (snd (entry_of (many n) kA))))).
  assert (E : api_proof apiH api_psl (many n) api_disk 32 [x07] siteA = Body (chain_text [a])).
  { unfold api_proof. rewrite (many_answer (fun id => apiH (snd (entry_of (many n) id)))). reflexivity. }
  assert (Ea : exists e, a_entry a = Some e /\ e_certs e = Some (repeat x41 n) /\ e_name e = siteA /\ entry_ok e).
  { eexists. split; [reflexivity|]. split; [reflexivity|]. split; [reflexivity|]. split; [apply JsonTextProofs.ascii_valid; reflexivity|].
    split; [reflexivity|]. split; [apply apiH_length|]. split; reflexivity. }
  destruct Ea as (e & Ea & Ec & En & Ek).
  exists apiH, api_psl, (many n), api_disk, [x07], siteA, (chain_text [a]), [a]. split; [exact E|]. split; [|split].
  - apply chain_round_trip. constructor; [|constructor]. split; [rewrite Ea; exact Ek|reflexivity].
  - cbn [map]. rewrite Ea. cbn [option_map]. rewrite En. reflexivity.
  - apply (C99_long recv apiH api_psl api_disk (many n) api_disk 32 [x07] siteA _ R eq_refl E). pose proof (chain_long a e _ Ea Ec) as L. rewrite repeat_length in L. unfold n in L. lia.
Qed.

(** ** The process of the caller *)
(** GetProofs and StartWork return if the process has no arguments which look like flags in front... *)
Theorem C99_call more e args r : match args with [] => True | s :: _ => match s with x2d :: _ :: _ => False | _ => True end end -> get_proofs_call more e args r = Return r.
Proof.
  intros A. unfold get_proofs_call. destruct args as [|s args]; [reflexivity|]. cbn [CmdModel.parse].
  assert (P : CmdModel.classify s = CmdModel.Positional).
  { destruct s as [|m [|c s]]; [reflexivity|reflexivity|]. unfold CmdModel.classify. destruct (Byte.eqb m CmdModel.minus) eqn:Q; [|reflexivity]. apply Byte.byte_dec_bl in Q. subst m. contradiction. }
  rewrite P. reflexivity.
Qed.
(** ... but an argument that is meant for the program which uses them ends it, with any answer of the server. *)
Theorem C99_exit_refuted : exists args, forall e r, get_proofs_call [] e args r = Exit 2.
Proof. exists [b_ "-verbose"]. reflexivity. Qed.
(** The flags that they register change nothing: neither the port nor the name that is asked for. *)
Theorem C99_flags_refuted : exists args e', forall e r, get_proofs_call [] e args r = Return r /\
  CmdModel.parse grpc_flags e args = CmdModel.Parsed (e' e) [] /\ e' e (b_ "port") = CmdModel.VInt 1 /\ e' e (b_ "name") = CmdModel.VText (b_ "a.com").
Proof.
  exists [b_ "-port=1"; b_ "-name"; b_ "a.com"], (fun e => CmdModel.upd (CmdModel.upd e (b_ "port") (CmdModel.VInt 1)) (b_ "name") (CmdModel.VText (b_ "a.com"))).
  intros e r. repeat split; reflexivity.
Qed.
Print Assumptions C99_request.
Print Assumptions C99_unknown.
Print Assumptions C99_reply.
Print Assumptions C99_text.
Print Assumptions C99_same.
Print Assumptions C99_name.
Print Assumptions C99_served_partial.
Print Assumptions C99_stale_refuted.
Print Assumptions C99_long.
Print Assumptions C99_large_refuted.
Print Assumptions C99_call.
Print Assumptions C99_exit_refuted.
Print Assumptions C99_flags_refuted.
