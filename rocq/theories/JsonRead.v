(** Proofs about JsonModel: FromJSON after ToJSON, and FromJSON on every text. *)
From Coq Require Import Strings.String.
From Verif Require Import Base BaseLemmas UtilModel UtilDuration DbModel LoadModel LoadProofs PolicyModel JsonText JsonTextProofs JsonParse JsonModel JsonProofs.
Local Open Scope list_scope.
Local Notation b_ s := (list_byte_of_string s%string).

(** ** What is written is well formed *)
Definition members_ok (l : list (bytes * json)) : Prop := Forall (fun kv => raw_ok (fst kv) /\ json_ok (snd kv)) l.
Lemma members_app l1 l2 : members_ok l1 -> members_ok l2 -> members_ok (l1 ++ l2).
Proof. intros A B. apply Forall_app. auto. Qed.
Lemma members_one k v : forallb simple_char k = true -> json_ok v -> members_ok [(k, v)].
Proof. intros A B. constructor; [|constructor]. split; [now apply raw_simple|exact B]. Qed.
Lemma ok_int k z : forallb simple_char k = true -> members_ok (int_member k z).
Proof. intros K. unfold int_member. destruct (Z.eqb z 0); [constructor|]. apply members_one; [exact K|apply num_dec]. Qed.
Lemma ok_string k s : forallb simple_char k = true -> members_ok (string_member k s).
Proof. intros K. unfold string_member. destruct s; [constructor|]. apply members_one; [exact K|apply raw_escape]. Qed.
Lemma ok_bool k b : forallb simple_char k = true -> members_ok (bool_member k b).
Proof. intros K. unfold bool_member. destruct b; [|constructor]. apply members_one; [exact K|exact I]. Qed.
Lemma b64_raw b : raw_ok (b64_encode b).
Proof. apply raw_simple, b64_simples. Qed.
Lemma ok_slice k s : forallb simple_char k = true -> members_ok (slice_member k s).
Proof. intros K. unfold slice_member. destruct (content s); [constructor|]. apply members_one; [exact K|apply b64_raw]. Qed.
Lemma ok_list k l : forallb simple_char k = true -> Forall json_ok l -> members_ok (list_member k l).
Proof. intros K F. unfold list_member. destruct l; [constructor|]. apply members_one; [exact K|now apply ok_arr]. Qed.
Lemma ok_strings l : Forall json_ok (strings l).
Proof. unfold strings. induction l; constructor; auto. apply raw_escape. Qed.
Lemma ok_time zs k t m : forallb simple_char k = true -> time_member zs k t = Some m -> members_ok m.
Proof.
  intros K E. unfold time_member in E. destruct (time_text zs t) as [x|] eqn:T; [|discriminate]. cbn in E. injection E as <-.
  apply members_one; [exact K|]. apply raw_simple. now apply (time_text_simple zs t).
Qed.
Ltac written :=
  repeat apply members_app;
  first [assumption | apply ok_int; reflexivity | apply ok_string; reflexivity | apply ok_bool; reflexivity | apply ok_slice; reflexivity
        | apply ok_list; [reflexivity|first [apply ok_strings | assumption]] | idtac].
Lemma ok_attr a : json_ok (attr_json a).
Proof. apply ok_obj. fold (members_ok). unfold members_ok. change (Forall _ ?l) with (members_ok l). written. Qed.
Ltac unSome E := apply (f_equal (fun o => match o with Some x => x | None => [] end)) in E; cbv beta iota in E; rewrite <- E; clear E.
Lemma ok_fields zs f l : fields_members zs f = Some l -> members_ok l.
Proof.
  intros E. unfold fields_members in E.
  destruct (time_member zs (b_ "NotBefore") (f_not_before f)) as [nb|] eqn:T1; [|discriminate]. cbn [obind] in E.
  destruct (time_member zs (b_ "NotAfter") (f_not_after f)) as [na|] eqn:T2; [|discriminate]. cbn [obind] in E.
  destruct (time_member zs (b_ "TimeStamp") (f_stamp f)) as [ts|] eqn:T3; [|discriminate]. cbn [obind] in E. unSome E.
  apply ok_time in T1; [|reflexivity]. apply ok_time in T2; [|reflexivity]. apply ok_time in T3; [|reflexivity].
  written. apply members_one; [reflexivity|apply ok_attr].
Qed.
Lemma ok_ts zs t l : ts_members zs t = Some l -> members_ok l.
Proof.
  intros E. unfold ts_members in E. destruct (time_member zs (b_ "AddedTS") (ts_added t)) as [ad|] eqn:T1; [|discriminate]. cbn [obind] in E. unSome E.
  apply ok_time in T1; [|reflexivity]. written.
Qed.
Lemma ok_stamps zs l : forall vs, all_some (ts_json zs) l = Some vs -> Forall json_ok vs.
Proof.
  induction l as [|t l IH]; intros vs E; cbn [all_some] in E; [injection E as <-; constructor|].
  destruct (ts_json zs t) as [v|] eqn:T; [|discriminate]. cbn [obind] in E. destruct (all_some (ts_json zs) l) as [r|] eqn:R; [|discriminate].
  cbn [obind] in E. injection E as <-. constructor; [|auto]. unfold ts_json in T. destruct (ts_members zs t) as [m|] eqn:M; [|discriminate].
  cbn in T. injection T as <-. apply ok_obj. now apply (ok_ts zs t).
Qed.
Lemma ok_cert zs c l : cert_members zs c = Some l -> members_ok l.
Proof.
  intros E. unfold cert_members in E. destruct (fields_members zs (c_fields c)) as [fm|] eqn:M; [|discriminate]. cbn [obind] in E.
  destruct (all_some (ts_json zs) (c_spcts c)) as [vs|] eqn:V; [|discriminate]. cbn [obind] in E. unSome E.
  apply ok_fields in M. apply ok_stamps in V. written.
Qed.
Lemma ok_rev zs r l : rev_members zs r = Some l -> members_ok l.
Proof.
  intros E. unfold rev_members in E. destruct (time_member zs (b_ "TimeStamp") (r_stamp r)) as [ts|] eqn:T1; [|discriminate]. cbn [obind] in E.
  destruct (all_some (ts_json zs) (r_spcrts r)) as [vs|] eqn:V; [|discriminate]. cbn [obind] in E. unSome E.
  apply ok_time in T1; [|reflexivity]. apply ok_stamps in V. written.
Qed.
Lemma ok_sig zs t e l : sig_members zs t e = Some l -> members_ok l.
Proof.
  intros E. unfold sig_members in E. destruct (ts_members zs t) as [m|] eqn:M; [|discriminate]. cbn [obind] in E. unSome E.
  apply ok_ts in M. written. apply members_one; [reflexivity|]. destruct e; [apply b64_raw|exact I].
Qed.
Lemma tag_ok t m p : tag t m = Ok p -> (forall l, m = Some l -> members_ok l) -> exists l, m = Some l /\ p = (t, JObj l) /\ json_ok (snd p).
Proof.
  unfold tag. destruct m as [l|]; [|discriminate]. intros [= <-] K. exists l. repeat split. cbn [snd]. apply ok_obj, K. reflexivity.
Qed.
Lemma wrap_ok p : json_ok (snd p) -> json_ok (wrap p).
Proof.
  intros K. unfold wrap. apply ok_obj. constructor; [|constructor; [|constructor]].
  - split; [apply raw_simple; reflexivity|apply raw_escape].
  - split; [apply raw_simple; reflexivity|exact K].
Qed.
Section Objects.
  Variable zs : zones.
  Lemma object_ind' (P : object -> Prop) :
    P ONil -> (forall f, P (OReq f)) -> (forall c, P (OCert c)) -> (forall t, P (OSpct t)) -> (forall h, P (ORevReq h)) -> (forall r, P (ORev r)) ->
    (forall t, P (OSpcrt t)) -> (forall t e, P (OSig t e)) -> (forall l, Forall P l -> P (OSlice l)) -> P (OPtr None) ->
    (forall o, P o -> P (OPtr (Some o))) -> forall o, P o.
  Proof.
    intros H0 H1 H2 H3 H4 H5 H6 H7 H8 H9 H10. fix IH 1.
    intros [|f|c|t|h|r|t|t e|l|[o|]]; [exact H0|apply H1|apply H2|apply H3|apply H4|apply H5|apply H6|apply H7| | |exact H9].
    - apply H8. induction l as [|o l IHl]; constructor; [apply IH|exact IHl].
    - apply H10, IH.
  Qed.
  Lemma marshal_slice l p : marshal zs (OSlice l) = Ok p ->
    exists ps, Forall2 (fun x q => marshal zs x = Ok q) l ps /\ p = (b_ "[]", JArr (map wrap ps)).
  Proof.
    intros E. cbn [marshal] in E.
    assert (G : forall l r, (fix children (l : list object) : res (list json) :=
                 match l with
                 | [] => Ok []
                 | x :: l' =>
                     match marshal zs x with
                     | Ok p => match children l' with Ok r => Ok (wrap p :: r) | e => e end
                     | Err => Err
                     | Panic => Panic
                     end
                 end) l = Ok r -> exists ps, Forall2 (fun x q => marshal zs x = Ok q) l ps /\ r = map wrap ps).
    { clear. induction l as [|x l IH]; intros r E; [injection E as <-; exists []; split; [constructor|reflexivity]|].
      destruct (marshal zs x) as [p| |] eqn:M; try discriminate.
      match type of E with match ?c with _ => _ end = _ => destruct c as [r'| |] eqn:C; try discriminate end.
      injection E as <-. destruct (IH _ eq_refl) as (ps & F & ->). exists (p :: ps). split; [now constructor|reflexivity]. }
    match type of E with match ?c with _ => _ end = _ => destruct c as [r| |] eqn:C; try discriminate end.
    injection E as <-. destruct (G _ _ C) as (ps & F & ->). eauto.
  Qed.
  Lemma marshal_ok o : forall p, marshal zs o = Ok p -> json_ok (snd p).
  Proof.
    induction o using object_ind'; intros p E; cbn [marshal] in E; try discriminate.
    - apply tag_ok in E as (l & _ & _ & K); [exact K|apply ok_fields].
    - apply tag_ok in E as (l & _ & _ & K); [exact K|apply ok_cert].
    - apply tag_ok in E as (l & _ & _ & K); [exact K|apply ok_ts].
    - apply tag_ok in E as (l & _ & _ & K); [exact K|]. intros l [= <-]. apply ok_slice. reflexivity.
    - apply tag_ok in E as (l & _ & _ & K); [exact K|apply ok_rev].
    - apply tag_ok in E as (l & _ & _ & K); [exact K|apply ok_ts].
    - apply tag_ok in E as (l & _ & _ & K); [exact K|apply ok_sig].
    - apply marshal_slice in E as (ps & F & ->). cbn [snd]. apply ok_arr. clear - H F. revert ps F. induction H as [|o l P H IH]; intros ps F; inversion F; subst; [constructor|].
      cbn [map]. constructor; [apply wrap_ok; auto|auto].
    - destruct (marshal zs o) as [[t v]| |] eqn:M; try discriminate. injection E as <-. cbn [snd]. exact (IHo _ eq_refl).
  Qed.
End Objects.

(** ** The texts of members and elements of a written text *)
Lemma taken_app p r : taken (p ++ r) r = p.
Proof. unfold taken. rewrite app_length. replace (length p + length r - length r) with (length p) by lia. rewrite firstn_app, Nat.sub_diag, firstn_all. cbn. apply app_nil_r. Qed.
Lemma skip_printed v r : json_ok v -> skip_space (print v ++ r) = print v ++ r.
Proof. intros K. destruct (print_head v K) as (c & t & -> & S & _). now apply skip_head. Qed.
Lemma parse_printed v r : json_ok v -> value_end r -> parse_value (S (2 * length (print v ++ r))) (print v ++ r) = Some (v, r).
Proof. intros K R. apply parse_print_value; auto. rewrite app_length. lia. Qed.
Lemma member_texts_ok l : members_ok l -> l <> [] -> forall r f, length l <= f ->
  member_texts f (commas (map member l) ++ x7d :: r) = Some (map (fun kv => (fst kv, (print (snd kv), snd kv))) l).
Proof.
  induction l as [|[k v] l IH]; intros K N r f F; [contradiction|]. inversion K as [|? ? [Kk Kv] Kl]; subst. cbn [fst snd] in *.
  destruct f as [|f]; [cbn in F; lia|]. cbn [length] in F. destruct l as [|kv2 l].
  - change (commas (map member [(k, v)])) with (member (k, v)). rewrite member_app.
    cbn [member_texts]. change (skip_space (dquote :: ?t)) with (dquote :: t). cbv iota. rewrite byte_eqb_refl, Kk. cbn [obind].
    change (skip_space (x3a :: ?t)) with (x3a :: t). cbv iota. rewrite byte_eqb_refl. cbv zeta. rewrite skip_printed by exact Kv.
    rewrite parse_printed by side. cbn [obind]. rewrite taken_app. reflexivity.
  - change (commas (map member ((k, v) :: kv2 :: l))) with (member (k, v) ++ x2c :: commas (map member (kv2 :: l))).
    rewrite <- app_assoc, member_app. cbn [app].
    cbn [member_texts]. change (skip_space (dquote :: ?t)) with (dquote :: t). cbv iota. rewrite byte_eqb_refl, Kk. cbn [obind].
    change (skip_space (x3a :: ?t)) with (x3a :: t). cbv iota. rewrite byte_eqb_refl. cbv zeta. rewrite skip_printed by exact Kv.
    rewrite parse_printed by side. cbn [obind]. rewrite taken_app. change (skip_space (x2c :: ?t)) with (x2c :: t). cbv iota. rewrite byte_eqb_refl.
    rewrite IH by (try exact Kl; try discriminate; cbn [length] in *; lia). reflexivity.
Qed.
Lemma element_texts_ok l : Forall json_ok l -> l <> [] -> forall r f, length l <= f ->
  element_texts f (commas (map print l) ++ x5d :: r) = Some (map print l).
Proof.
  induction l as [|v l IH]; intros K N r f F; [contradiction|]. inversion K as [|? ? Kv Kl]; subst.
  destruct f as [|f]; [cbn in F; lia|]. cbn [length] in F. destruct l as [|v2 l].
  - change (commas (map print [v])) with (print v). cbn [element_texts]. rewrite skip_printed by exact Kv. cbv zeta.
    rewrite parse_printed by side. rewrite taken_app. reflexivity.
  - change (commas (map print (v :: v2 :: l))) with (print v ++ x2c :: commas (map print (v2 :: l))). rewrite <- app_assoc. cbn [app].
    cbn [element_texts]. rewrite skip_printed by exact Kv. cbv zeta. rewrite parse_printed by side. rewrite taken_app.
    change (skip_space (x2c :: ?t)) with (x2c :: t). cbv iota. rewrite byte_eqb_refl.
    rewrite IH by (try exact Kl; try discriminate; cbn [length] in *; lia). reflexivity.
Qed.
Lemma commas_length l : Forall (fun x => x <> []) l -> length l <= length (commas l).
Proof.
  intros F. induction F as [|x l N F IH]; [cbn; lia|]. destruct l as [|y l].
  - cbn. destruct x; [contradiction|]. cbn. lia.
  - change (commas (x :: y :: l)) with (x ++ x2c :: commas (y :: l)). rewrite app_length. cbn [length] in *. lia.
Qed.
Lemma raw_members_ok l : members_ok l -> l <> [] ->
  raw_members (print (JObj l)) = Some (map (fun kv => (fst kv, (print (snd kv), snd kv))) l).
Proof.
  intros K N. unfold raw_members. rewrite parse_print by (now apply ok_obj). rewrite print_obj.
  change (tl (skip_space (x7b :: ?t))) with t. apply member_texts_ok; auto. cbn [length]. rewrite app_length.
  pose proof (commas_length (map member l)) as C. rewrite map_length in C.
  assert (length l <= length (commas (map member l))) by (apply C; apply Forall_forall; intros x I; apply in_map_iff in I as (? & <- & _); discriminate). lia.
Qed.
Lemma raw_elements_ok l : Forall json_ok l -> raw_elements (print (JArr l)) = Some (map print l).
Proof.
  intros K. destruct l as [|v l]; [reflexivity|]. unfold raw_elements. rewrite parse_print by (now apply ok_arr). rewrite print_arr.
  change (tl (skip_space (x5b :: ?t))) with t. apply element_texts_ok; auto; [discriminate|]. cbn [length]. rewrite app_length.
  pose proof (commas_length (map print (v :: l))) as C. rewrite map_length in C.
  assert (length (v :: l) <= length (commas (map print (v :: l)))).
  { apply C, Forall_forall. intros x I. apply in_map_iff in I as (w & <- & I). rewrite Forall_forall in K. destruct (print_head w (K w I)) as (c & t & -> & _). discriminate. }
  cbn [length] in *. lia.
Qed.
Lemma raw_pair T v : json_ok v -> obind (raw_members (print (wrap (T, v)))) (fun l => read_pair l ([], None)) = Some (repair T, Some (print v)).
Proof.
  intros K. unfold wrap. rewrite raw_members_ok; [|apply ok_obj; now apply wrap_ok|discriminate]. cbn [map fst snd obind read_pair].
  change (unquote (b_ "T")) with (Some (b_ "T")). cbn [obind]. change (beqb (fold_name (b_ "T")) (b_ "T")) with true. cbv iota.
  cbn [read_string]. rewrite unquote_escape. cbn [obind]. change (unquote (b_ "O")) with (Some (b_ "O")). cbn [obind].
  change (beqb (fold_name (b_ "O")) (b_ "T")) with false. change (beqb (fold_name (b_ "O")) (b_ "O")) with true. reflexivity.
Qed.
Lemma trim_print l : trim (print (JObj l)) = print (JObj l).
Proof.
  rewrite print_obj. unfold trim. change (skip_space (x7b :: ?t)) with (x7b :: t). cbn [rev]. rewrite rev_app_distr. cbn [rev app].
  change (skip_space (x7d :: ?t)) with (x7d :: t). cbn [rev]. rewrite rev_app_distr. cbn [rev app]. rewrite rev_involutive. reflexivity.
Qed.

(** ** Reading back *)
Definition n_struct (zs : zones) (o : object) : object :=
  match o with
  | OReq f => OReq (n_fields zs f)
  | OCert c => OCert (n_cert zs c)
  | OSpct t => OSpct (n_ts zs t)
  | ORevReq h => ORevReq (n_slice h)
  | ORev r => ORev (n_rev zs r)
  | OSpcrt t => OSpcrt (n_ts zs t)
  | OSig t e => OSig (n_ts zs t) e
  | _ => o
  end.
Definition struct_ok (o : object) : Prop :=
  match o with
  | OReq f => fields_int f
  | OCert c => cert_int c
  | OSpct t | OSpcrt t | OSig t _ => ts_int t
  | ORevReq _ => True
  | ORev r => rev_int r
  | _ => False
  end.
Definition keep_text (skip : bool) (text : bytes) (o : object) : object := if skip then o else set_raw text o.
Definition text_of (zs : zones) (o : object) : bytes := match to_text zs o with Ok b => b | _ => [] end.
(** A structure, a slice of such objects, or a pointer to one of these: no pointer to a pointer, no nil *)
Fixpoint object_ok (o : object) : Prop :=
  match o with
  | OSlice l => (fix all (l : list object) : Prop := match l with [] => True | x :: l' => object_ok x /\ all l' end) l
  | OPtr (Some (OSlice l)) => (fix all (l : list object) : Prop := match l with [] => True | x :: l' => object_ok x /\ all l' end) l
  | OPtr (Some x) => struct_ok x
  | _ => struct_ok o
  end.
Fixpoint normal (zs : zones) (skip : bool) (o : object) : object :=
  match o with
  | OSlice l => OSlice (map (normal zs skip) l)
  | OPtr (Some (OSlice l)) => OPtr (Some (OSlice (map (normal zs skip) l)))
  | OPtr (Some x) => OPtr (Some (keep_text skip (text_of zs o) (n_struct zs x)))
  | _ => keep_text skip (text_of zs o) (n_struct zs o)
  end.
Lemma all_ok l : (fix all (l : list object) : Prop := match l with [] => True | x :: l' => object_ok x /\ all l' end) l <-> Forall object_ok l.
Proof. induction l as [|x l IH]; [split; constructor|]. split; [intros [A B]; constructor; tauto|]. intros F. inversion F; subst. tauto. Qed.
Section Back.
  Variable zs : zones.
  Lemma structure_back o T v : struct_ok o -> marshal zs o = Ok (T, v) ->
    structure zs T v = Ok (Some (n_struct zs o)) /\ T <> [] /\ hd x00 T <> x2a /\ forallb ascii T = true /\ T <> b_ "[]" /\ structure zs (x2a :: T) v = Ok None.
  Proof.
    destruct o as [|f|c|t|h|r|t|t e|l|o]; cbn [struct_ok]; try contradiction; intros I E; cbn [marshal] in E; unfold tag in E.
    - destruct (fields_members zs f) as [l|] eqn:M; [|discriminate]. injection E as <- <-. repeat split; try discriminate.
      unfold structure. unfold inflate. cbn [read_struct]. rewrite (reads_fields zs f l) by assumption. reflexivity.
    - destruct (cert_members zs c) as [l|] eqn:M; [|discriminate]. injection E as <- <-. repeat split; try discriminate.
      unfold structure. unfold inflate. cbn [read_struct]. rewrite (reads_cert zs c l) by assumption. reflexivity.
    - destruct (ts_members zs t) as [l|] eqn:M; [|discriminate]. injection E as <- <-. repeat split; try discriminate.
      unfold structure. unfold inflate. cbn [read_struct]. rewrite (reads_ts zs t l) by assumption. reflexivity.
    - injection E as <- <-. repeat split; try discriminate.
      unfold structure. unfold inflate. cbn [read_struct]. rewrite reads_rev_request. reflexivity.
    - destruct (rev_members zs r) as [l|] eqn:M; [|discriminate]. injection E as <- <-. repeat split; try discriminate.
      unfold structure. unfold inflate. cbn [read_struct]. rewrite (reads_rev zs r l) by assumption. reflexivity.
    - destruct (ts_members zs t) as [l|] eqn:M; [|discriminate]. injection E as <- <-. repeat split; try discriminate.
      unfold structure. unfold inflate. cbn [read_struct]. rewrite (reads_ts zs t l) by assumption. reflexivity.
    - destruct (sig_members zs t e) as [l|] eqn:M; [|discriminate]. injection E as <- <-. repeat split; try discriminate.
      unfold structure. unfold inflate. cbn [read_struct]. rewrite (reads_sig zs t e l) by assumption. reflexivity.
  Qed.
End Back.
Section Fuel.
  Variable zs : zones.
  Definition read_all (f : nat) (skip : bool) : list bytes -> list object -> option (res object) :=
    fix go l acc :=
    match l with
    | [] => Some (Ok (OSlice (rev acc)))
    | x :: l' => match from_text_upto zs f skip x with Some (Ok o) => go l' (o :: acc) | e => e end
    end.
  Definition slice_text (f : nat) (skip : bool) (ot : bytes) : option (res object) :=
    match raw_elements ot with None => Some Err | Some l => read_all f skip l [] end.
  Lemma from_text_step f skip text : from_text_upto zs (S f) skip text =
    match obind (raw_members text) (fun l => read_pair l ([], None)) with
    | Some (T, Some ot) =>
        match parse ot with
        | None => Some Err
        | Some v =>
            if beqb T (b_ "[]") then slice_text f skip ot
            else match structure zs T v with
                 | Ok (Some o) => Some (Ok (keep_text skip (trim text) o))
                 | Ok None =>
                     match T with
                     | c :: T' =>
                         if Byte.eqb c x2a then
                           if beqb T' (b_ "[]") then match slice_text f skip ot with Some (Ok o) => Some (Ok (OPtr (Some o))) | e => e end
                           else match structure zs T' v with
                                | Ok (Some o) => Some (Ok (OPtr (Some (keep_text skip (trim text) o))))
                                | _ => Some Err
                                end
                         else Some Err
                     | [] => Some Err
                     end
                 | _ => Some Err
                 end
        end
    | _ => Some Err
    end.
  Proof. reflexivity. Qed.
  Lemma read_all_ok f skip (text : object -> bytes) (res : object -> object) l :
    Forall (fun x => from_text_upto zs f skip (text x) = Some (Ok (res x))) l ->
    forall acc, read_all f skip (map text l) acc = Some (Ok (OSlice (rev acc ++ map res l))).
  Proof.
    intros F. induction F as [|x l E F IH]; intros acc; unfold read_all in *; cbn [map]; [now rewrite app_nil_r|]. rewrite E, IH. cbn [rev]. now rewrite <- app_assoc.
  Qed.
  Lemma in_commas (l : list bytes) x : In x l -> length x <= length (commas l).
  Proof.
    induction l as [|y l IH]; [contradiction|]. destruct l as [|z l].
    - intros [->|[]]. cbn. lia.
    - change (commas (y :: z :: l)) with (y ++ x2c :: commas (z :: l)). rewrite app_length. cbn [length].
      intros [->|I]; [lia|]. specialize (IH I). lia.
  Qed.
  Lemma print_wrap T v : print (wrap (T, v)) = x7b :: commas [member (b_ "T", JStr (escape T)); member (b_ "O", v)] ++ [x7d].
  Proof. unfold wrap. rewrite print_obj. reflexivity. Qed.
  Lemma print_wrap_length T v : length (print v) < length (print (wrap (T, v))).
  Proof.
    rewrite print_wrap. cbn [commas]. unfold member. cbn [fst snd]. repeat (rewrite ?app_length; cbn [length app]). lia.
  Qed.
  Lemma beqb_false a b : a <> b -> beqb a b = false.
  Proof. intros N. destruct (beqb a b) eqn:E; [|reflexivity]. apply beqb_eq in E. contradiction. Qed.
  Lemma repair_ascii (T : bytes) : forallb ascii T = true -> repair T = T.
  Proof. intros A. apply repair_valid. now apply ascii_valid. Qed.
  Lemma back o : forall f skip p, object_ok o -> marshal zs o = Ok p -> length (print (wrap p)) < f ->
    from_text_upto zs f skip (print (wrap p)) = Some (Ok (normal zs skip o)).
  Proof.
    intros f. revert o. induction f as [|f IH]; intros o skip p K M L; [lia|].
    pose proof (marshal_ok zs o p M) as J. destruct p as [T v]. cbn [snd] in J.
    assert (X : text_of zs o = print (wrap (T, v))) by (unfold text_of, to_text; now rewrite M).
    assert (Tr : trim (print (wrap (T, v))) = print (wrap (T, v))) by (unfold wrap; apply trim_print).
    rewrite from_text_step, raw_pair by exact J. rewrite parse_print by exact J. cbv iota.
    assert (SL : forall l ps, Forall object_ok l -> Forall2 (fun x q => marshal zs x = Ok q) l ps -> v = JArr (map wrap ps) ->
                 slice_text f skip (print v) = Some (Ok (OSlice (map (normal zs skip) l)))).
    { intros l ps Kl F2 ->. unfold slice_text. pose proof (print_wrap_length T (JArr (map wrap ps))) as L2.
      assert (F : Forall json_ok (map wrap ps)).
      { clear - F2. induction F2; cbn [map]; constructor; auto. apply wrap_ok. eauto using marshal_ok. }
      rewrite raw_elements_ok by exact F. rewrite map_map.
      assert (EQ : map (fun q => print (wrap q)) ps = map (text_of zs) l).
      { clear - F2. induction F2; cbn [map]; [reflexivity|]. f_equal; [|assumption]. unfold text_of, to_text. now rewrite H. }
      rewrite EQ. rewrite (read_all_ok f skip (text_of zs) (normal zs skip)); [reflexivity|].
      assert (LL : forall x, In x (map (text_of zs) l) -> length x < f).
      { intros x I. rewrite <- EQ in I. apply in_commas in I. rewrite print_arr in L2. cbn [length] in L2. rewrite app_length in L2. rewrite map_map in L2. cbn [length] in L2. lia. }
      clear - IH Kl F2 LL. revert ps F2. induction l as [|x l IHl]; intros ps F2; [constructor|]. inversion F2 as [|? q ? ps' Mx F2']; subst. inversion Kl; subst.
      constructor; [|apply (IHl) with (ps := ps'); auto; intros y I; apply LL; now right].
      assert (Tx : text_of zs x = print (wrap q)) by (unfold text_of, to_text; now rewrite Mx).
      rewrite Tx. apply IH; auto. rewrite <- Tx. apply LL. now left. }
    assert (ST : struct_ok o -> normal zs skip o = keep_text skip (text_of zs o) (n_struct zs o) ->
      (if beqb (repair T) (b_ "[]") then slice_text f skip (print v)
            else match structure zs (repair T) v with
                 | Ok (Some o) => Some (Ok (keep_text skip (trim (print (wrap (T, v)))) o))
                 | Ok None =>
                     match repair T with
                     | c :: T' =>
                         if Byte.eqb c x2a then
                           if beqb T' (b_ "[]") then match slice_text f skip (print v) with Some (Ok o) => Some (Ok (OPtr (Some o))) | e => e end
                           else match structure zs T' v with
                                | Ok (Some o) => Some (Ok (OPtr (Some (keep_text skip (trim (print (wrap (T, v)))) o))))
                                | _ => Some Err
                                end
                         else Some Err
                     | [] => Some Err
                     end
                 | _ => Some Err
                 end) = Some (Ok (normal zs skip o))).
    { intros S N. destruct (structure_back zs o T v S M) as (S1 & _ & _ & A & NE & _). rewrite repair_ascii by exact A.
      rewrite (beqb_false T) by exact NE. rewrite S1, Tr, N, X. reflexivity. }
    destruct o as [|fl|c|t|h|r|t|t e|l|[o|]]; try (apply ST; [exact K|reflexivity]); try contradiction.
    - cbn [object_ok] in K. apply all_ok in K. apply marshal_slice in M as (ps & F2 & E). injection E as -> Ev.
      change (repair (b_ "[]")) with (b_ "[]"). change (beqb (b_ "[]") (b_ "[]")) with true. cbv iota. cbn [normal]. now apply (SL l ps).
    - clear ST. cbn [marshal] in M. destruct (marshal zs o) as [[T' v']| |] eqn:M'; try discriminate. injection M as <- ->.
      assert (Q : (exists l, o = OSlice l) \/ (struct_ok o /\ normal zs skip (OPtr (Some o)) = OPtr (Some (keep_text skip (text_of zs (OPtr (Some o))) (n_struct zs o))))).
      { destruct o; try contradiction; try (right; split; [exact K|reflexivity]). left. eauto. }
      destruct Q as [[l ->]|[S N]].
      + cbn [object_ok] in K. apply all_ok in K. apply marshal_slice in M' as (ps & F2 & E). injection E as -> Ev.
        change (repair (x2a :: b_ "[]")) with (x2a :: b_ "[]"). change (beqb (x2a :: b_ "[]") (b_ "[]")) with false. cbv iota.
        change (structure zs (x2a :: b_ "[]") v) with (@Ok (option object) None). cbv iota. rewrite byte_eqb_refl.
        change (beqb (b_ "[]") (b_ "[]")) with true. cbv iota. rewrite (SL l ps) by assumption. reflexivity.
      + destruct (structure_back zs o T' v S M') as (S1 & _ & _ & A & NE & S2).
        rewrite repair_ascii by (cbn [forallb]; rewrite A; reflexivity). rewrite (beqb_false (x2a :: T')) by (intros [= E _]; discriminate E).
        rewrite S2, byte_eqb_refl. rewrite (beqb_false T') by exact NE. rewrite S1, Tr, N, X. reflexivity.
  Qed.
  (** FromJSON of what ToJSON wrote *)
  Lemma round_trip skip o text : object_ok o -> to_text zs o = Ok text -> from_text zs skip text = Some (Ok (normal zs skip o)).
  Proof.
    unfold to_text. intros K E. destruct (marshal zs o) as [p| |] eqn:M; try discriminate. injection E as <-. unfold from_text. apply back; auto.
  Qed.

End Fuel.
