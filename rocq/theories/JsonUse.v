(** Policy certificates over the JSON text of JsonModel: what a text says, and signatures of certificates that were read. *)
From Verif Require Import Base BaseLemmas UtilModel UtilDuration DbModel LoadModel LoadProofs PolicyModel PolicyProofs JsonText JsonTextProofs JsonParse JsonModel JsonProofs JsonRead JsonEvery JsonStable.
Local Open Scope list_scope.

(** json.go:19 ToJSON on a pointer to a policy certificate, as crypto.go uses it *)
Definition enc_json (zs : zones) (c : cert) : option bytes := match to_text zs (OPtr (Some (OCert c))) with Ok b => Some b | _ => None end.
(** [d] is read from the text of [c]. *)
Definition reads_as (zs : zones) (c d : cert) : Prop :=
  exists text, to_text zs (OPtr (Some (OCert c))) = Ok text /\ from_text zs false text = Some (Ok (OPtr (Some (OCert d)))).

Section Use.
  Variable zs : zones.
  Lemma n_time_mono t : t_mono (n_time zs t) = None.
  Proof. unfold n_time. destruct (Z.eqb _ _); reflexivity. Qed.
  Lemma n_wall c : cert_wall (n_cert zs c).
  Proof.
    split; [unfold fields_wall; cbn; rewrite !n_time_mono; auto|]. cbn. apply Forall_forall. intros t I. apply in_map_iff in I as (u & <- & _). apply n_time_mono.
  Qed.
  Lemma same_n c : cert_plain zs c -> same_cert c (n_cert zs c).
  Proof. intros P. apply cert_equal_spec; [right; apply n_wall|]. now apply cert_equal_n. Qed.
  Lemma same_sym a b : same_cert a b -> same_cert b a.
  Proof.
    unfold same_cert, same_fields, same_attr. intros (F & S & I & L). decompose [and] F. repeat split; auto; try congruence.
    clear - L. induction L as [|x y l m X L IH]; constructor; [|exact IH]. unfold same_ts in *. decompose [and] X. repeat split; congruence.
  Qed.
  Definition raw_cert (x : bytes) (c : cert) : cert := with_c_fields (with_f_raw (Some x) (c_fields c)) c.
  Lemma same_raw x c : same_cert c (raw_cert x c).
  Proof. unfold same_cert, same_fields, same_attr. repeat split; auto. cbn. induction (c_spcts c); constructor; [repeat split|assumption]. Qed.
  Lemma read_cert c text : cert_int c -> to_text zs (OPtr (Some (OCert c))) = Ok text ->
    from_text zs false text = Some (Ok (OPtr (Some (OCert (raw_cert text (n_cert zs c)))))).
  Proof.
    intros K T. pose proof (round_trip zs false (OPtr (Some (OCert c))) text K T) as E. rewrite E. cbn [normal keep_text n_struct set_raw]. unfold text_of. rewrite T. reflexivity.
  Qed.
  Lemma reads_as_n c d : cert_int c -> reads_as zs c d -> exists text, to_text zs (OPtr (Some (OCert c))) = Ok text /\ d = raw_cert text (n_cert zs c).
  Proof.
    intros K (text & T & F). exists text. split; [exact T|]. rewrite (read_cert c text K T) in F.
    exact (eq_sym (f_equal (fun o => match o with Some (Ok (OPtr (Some (OCert c)))) => c | _ => d end) F)).
  Qed.
  Lemma certificate_back c text : cert_int c -> cert_plain zs c -> to_text zs (OPtr (Some (OCert c))) = Ok text ->
    exists d, from_text zs false text = Some (Ok (OPtr (Some (OCert d)))) /\ file_cert zs text = Some (Ok d) /\ same_cert c d /\ cert_wall d /\
      f_raw (c_fields d) = Some text /\ (zones_law zs -> to_text zs (OPtr (Some (OCert d))) = Ok text).
  Proof.
    intros K P T. exists (raw_cert text (n_cert zs c)). pose proof (read_cert c text K T) as E. split; [exact E|]. split; [unfold file_cert; rewrite E; reflexivity|].
    split; [apply (same_cert_trans _ (n_cert zs c)); [now apply same_n|apply same_raw]|]. split; [apply n_wall|]. split; [reflexivity|]. intros L.
    rewrite <- T. rewrite <- (normal_text zs L false (OPtr (Some (OCert c))) P). cbn [normal keep_text n_struct set_raw]. unfold text_of. rewrite T. reflexivity.
  Qed.

  (** ** The texts that are signed *)
  Lemma n_view c : n_cert zs (json_view c) = n_cert zs c.
  Proof.
    destruct c as [[] ? ? sp]. unfold n_cert, json_view. cbn [PolicyModel.c_fields PolicyModel.c_issuer_sig PolicyModel.c_issuer_hash PolicyModel.c_spcts]. f_equal.
    rewrite map_map. apply map_ext. intros []. reflexivity.
  Qed.
  Lemma int_view c : cert_int c -> cert_int (json_view c).
  Proof. intros [F L]. split; [exact F|]. cbn. apply Forall_map. eapply Forall_impl; [|exact L]. intros []. auto. Qed.
  Lemma plain_view c : cert_plain zs c -> cert_plain zs (json_view c).
  Proof.
    intros [(A & B & C & D & E) L]. split; [exact (conj A (conj B (conj C (conj D E))))|]. cbn. apply Forall_map. eapply Forall_impl; [|exact L]. intros []. auto.
  Qed.
  Lemma view_n x c : json_view (raw_cert x (n_cert zs c)) = n_cert zs (json_view c).
  Proof.
    rewrite n_view. destruct c as [[] ? ? sp]. unfold json_view, raw_cert, n_cert. cbn [PolicyModel.c_fields PolicyModel.c_issuer_sig PolicyModel.c_issuer_hash PolicyModel.c_spcts with_c_fields]. f_equal.
    - unfold fields_view, n_fields, with_f_raw, no_mono. cbn. f_equal; unfold n_time; destruct (Z.eqb _ _); reflexivity.
    - rewrite map_map. apply map_ext. intros []. unfold ts_view, n_ts, no_mono. cbn. f_equal. unfold n_time. destruct (Z.eqb _ _); reflexivity.
  Qed.
  Lemma enc_n c : zones_law zs -> cert_plain zs c -> enc_json zs (n_cert zs c) = enc_json zs c.
  Proof. intros L P. unfold enc_json. pose proof (normal_text zs L true (OPtr (Some (OCert c))) P) as E. cbn [normal keep_text n_struct] in E. rewrite E. reflexivity. Qed.
  Lemma to_json_read c x : zones_law zs -> cert_plain zs c -> to_json (enc_json zs) (raw_cert x (n_cert zs c)) = to_json (enc_json zs) c.
  Proof. intros L P. unfold to_json. rewrite view_n. apply enc_n; [exact L|]. now apply plain_view. Qed.
  Lemma to_json_inj c d b : cert_int c -> cert_int d -> to_json (enc_json zs) c = Some b -> to_json (enc_json zs) d = Some b -> n_cert zs c = n_cert zs d.
  Proof.
    intros K1 K2 T1 T2. unfold to_json, enc_json in T1, T2. destruct (to_text zs (OPtr (Some (OCert (json_view c))))) as [b1| |] eqn:E1; try discriminate.
    destruct (to_text zs (OPtr (Some (OCert (json_view d))))) as [b2| |] eqn:E2; try discriminate. injection T1 as ->. injection T2 as ->.
    rewrite <- (n_view c), <- (n_view d). eapply cert_text_inj; eauto using int_view.
  Qed.
  Lemma text_says c d b : cert_int c -> cert_int d -> cert_plain zs c -> cert_plain zs d -> to_json (enc_json zs) c = Some b -> to_json (enc_json zs) d = Some b -> same_cert c d.
  Proof.
    intros K1 K2 P1 P2 T1 T2. pose proof (to_json_inj c d b K1 K2 T1 T2) as E. apply (same_cert_trans _ (n_cert zs c)); [now apply same_n|].
    rewrite E. now apply same_sym, same_n.
  Qed.
End Use.
Section Signed.
  Variable zs : zones.
  Hypothesis law : zones_law zs.
  Variable H : bytes -> bytes.
  Variables priv pub : Type.
  Variable rsa_verify : pub -> bytes -> bytes -> bool.
  Variable parse_key : bytes -> option pub.
  Notation verify_owner_cert := (verify_owner_cert H (enc_json zs) pub rsa_verify parse_key).
  Notation verify_issuer := (verify_issuer H (enc_json zs) pub rsa_verify parse_key).
  Lemma strip_read c x : cert_plain zs c -> to_json (enc_json zs) (strip_for_owner (raw_cert x (n_cert zs c))) = to_json (enc_json zs) (strip_for_owner c).
  Proof.
    intros [P L]. rewrite <- (to_json_read zs (strip_for_owner c) x law); [reflexivity|]. split; [exact P|constructor].
  Qed.
  Lemma signer_read c x : cert_plain zs c -> hash_as_signer H (enc_json zs) (raw_cert x (n_cert zs c)) = hash_as_signer H (enc_json zs) c.
  Proof.
    intros [P L]. unfold hash_as_signer. rewrite <- (to_json_read zs (as_signer c) x law); [reflexivity|]. split; [exact P|constructor].
  Qed.
  Lemma owner_read owner owner' c c' : cert_int owner -> cert_int c -> cert_plain zs owner -> cert_plain zs c -> reads_as zs owner owner' -> reads_as zs c c' ->
    snd (verify_owner_cert owner' c') = snd (verify_owner_cert owner c).
  Proof.
    intros Ko Kc Po Pc Ro Rc. apply reads_as_n in Ro as (xo & _ & ->); [|exact Ko]. apply reads_as_n in Rc as (xc & _ & ->); [|exact Kc].
    unfold PolicyModel.verify_owner_cert. rewrite signer_read by exact Po. destruct (hash_as_signer H (enc_json zs) owner) as [h|]; [|reflexivity].
    cbn [raw_cert with_c_fields with_f_raw c_fields f_owner_hash f_key f_owner_sig n_cert n_fields]. rewrite !content_n.
    destruct (negb _); [reflexivity|]. destruct (parse_key _) as [pk|]; [|reflexivity].
    change (mk_cert (mk_fields (Some xc) _ _ _ _ _ _ _ _ _ _ _ _ _ _) _ _ _) with (raw_cert xc (n_cert zs c)). rewrite strip_read by exact Pc.
    destruct (to_json _ _); reflexivity.
  Qed.
  Lemma issuer_read issuer issuer' c c' : cert_int issuer -> cert_int c -> cert_plain zs issuer -> cert_plain zs c -> reads_as zs issuer issuer' -> reads_as zs c c' ->
    snd (verify_issuer issuer' c') = snd (verify_issuer issuer c).
  Proof.
    intros Ko Kc Po Pc Ro Rc. apply reads_as_n in Ro as (xo & _ & ->); [|exact Ko]. apply reads_as_n in Rc as (xc & _ & ->); [|exact Kc].
    unfold PolicyModel.verify_issuer. rewrite signer_read by exact Po. destruct (hash_as_signer H (enc_json zs) issuer) as [h|]; [|reflexivity].
    set (c1 := mk_cert (c_fields c) None (c_issuer_hash c) (c_spcts c)).
    assert (E : to_json (enc_json zs) (raw_cert xc (n_cert zs c1)) = to_json (enc_json zs) c1) by (apply to_json_read; assumption).
    cbv zeta. change (mk_cert (c_fields (raw_cert xc (n_cert zs c))) None (c_issuer_hash (raw_cert xc (n_cert zs c))) (c_spcts (raw_cert xc (n_cert zs c))))
      with (raw_cert xc (n_cert zs c1)). rewrite E.
    change (content (c_issuer_hash (raw_cert xc (n_cert zs c)))) with (content (n_slice (c_issuer_hash c))).
    change (content (PolicyModel.c_issuer_sig (raw_cert xc (n_cert zs c)))) with (content (n_slice (PolicyModel.c_issuer_sig c))).
    change (content (f_key (c_fields (raw_cert xo (n_cert zs issuer))))) with (content (n_slice (f_key (c_fields issuer)))). rewrite !content_n.
    destruct (negb _); [reflexivity|]. destruct (parse_key _) as [pk|]; [|reflexivity]. clear E. fold c1. destruct (to_json (enc_json zs) c1); reflexivity.
  Qed.
End Signed.

(** ** The same object up to JSONField, the location of times, and nil or empty slices *)
Fixpoint same_object (o d : object) : Prop :=
  match o, d with
  | ONil, ONil => True
  | OReq f, OReq g => same_fields f g
  | OCert c, OCert e => same_cert c e
  | OSpct t, OSpct u => same_ts t u
  | ORevReq h, ORevReq k => content h = content k
  | ORev r, ORev s => same_rev r s
  | OSpcrt t, OSpcrt u => same_ts t u
  | OSig t e, OSig u g => same_ts t u /\ content e = content g
  | OSlice l, OSlice m =>
      (fix all (l m : list object) : Prop := match l, m with [], [] => True | x :: l', y :: m' => same_object x y /\ all l' m' | _, _ => False end) l m
  | OPtr (Some x), OPtr (Some y) => same_object x y
  | OPtr None, OPtr None => True
  | _, _ => False
  end.
Lemma same_slice l : forall m, (fix all (l m : list object) : Prop := match l, m with [], [] => True | x :: l', y :: m' => same_object x y /\ all l' m' | _, _ => False end) l m <->
  Forall2 same_object l m.
Proof.
  induction l as [|x l IH]; intros [|y m]; split; intros F; try contradiction; try (inversion F; fail); try constructor.
  - apply F.
  - apply IH, F.
  - inversion F; subst. assumption.
  - inversion F; subst. now apply IH.
Qed.
(** Two objects that are the same as a third one *)
Lemma same_ts_both a b c : same_ts a c -> same_ts b c -> same_ts a b.
Proof. unfold same_ts. intros H1 H2. decompose [and] H1. decompose [and] H2. repeat split; congruence. Qed.
Lemma same_list_both l1 l2 l : Forall2 same_ts l1 l -> Forall2 same_ts l2 l -> Forall2 same_ts l1 l2.
Proof.
  intros F1. revert l2. induction F1 as [|x y l1 l X F1 IH]; intros l2 F2; inversion F2; subst; constructor; [eapply same_ts_both; eauto|now apply IH].
Qed.
Lemma same_fields_both a b c : same_fields a c -> same_fields b c -> same_fields a b.
Proof. unfold same_fields, same_attr. intros H1 H2. decompose [and] H1. decompose [and] H2. repeat split; congruence. Qed.
Lemma same_rev_both a b c : same_rev a c -> same_rev b c -> same_rev a b.
Proof.
  unfold same_rev. intros H1 H2. decompose [and] H1. decompose [and] H2. repeat (split; [congruence|]). eapply same_list_both; eassumption.
Qed.
Lemma same_object_both a : forall b c, same_object a c -> same_object b c -> same_object a b.
Proof.
  induction a using object_ind'; intros [|f'|c'|t'|h'|r'|t'|t' e'|l'|[o'|]] [|f''|c''|t''|h''|r''|t''|t'' e''|l''|[o''|]] S1 S2; cbn [same_object] in *; try contradiction; try exact I.
  - eapply same_fields_both; eassumption.
  - eapply same_cert_trans; [exact S1|now apply same_sym].
  - eapply same_ts_both; eassumption.
  - congruence.
  - eapply same_rev_both; eassumption.
  - eapply same_ts_both; eassumption.
  - destruct S1, S2. split; [eapply same_ts_both; eassumption|congruence].
  - apply same_slice in S1, S2. apply same_slice. revert l' S2. induction S1 as [|x y l l'' X S1 IH]; intros l' S2; inversion S2; subst; constructor.
    + inversion H; subst. eauto.
    + apply IH; [|assumption]. inversion H; assumption.
  - eauto.
Qed.
Section Same.
  Variable zs : zones.
  Lemma same_ts_n t : ts_plain zs t -> same_ts t (n_ts zs t).
  Proof. intros P. apply ts_equal_spec; [right; apply n_time_mono|]. now apply (ts_equal_n zs). Qed.
  Lemma same_struct o : struct_ok o -> struct_plain zs o -> same_object o (n_struct zs o).
  Proof.
    destruct o; cbn; try contradiction; intros K P.
    - apply fields_equal_spec; [right; unfold fields_wall; cbn; rewrite !n_time_mono; auto|]. now apply fields_equal_n.
    - now apply same_n.
    - now apply same_ts_n.
    - now rewrite content_n.
    - destruct P as (V & T & L). unfold same_rev. cbn. rewrite !content_n. rewrite repair_valid by exact V. rewrite n_time_whole by exact T. repeat split.
      clear K. induction L; constructor; [now apply same_ts_n|assumption].
    - now apply same_ts_n.
    - split; [now apply same_ts_n|reflexivity].
  Qed.
  Lemma same_keep skip x o d : same_object o d -> same_object o (keep_text skip x d).
  Proof. destruct skip; [auto|]. unfold keep_text. destruct d, o; auto. Qed.
  Lemma same_normal skip o : object_ok o -> object_plain zs o -> same_object o (normal zs skip o).
  Proof.
    assert (G : (object_ok o -> object_plain zs o -> same_object o (normal zs skip o)) /\
                (object_ok (OPtr (Some o)) -> object_plain zs o -> same_object (OPtr (Some o)) (normal zs skip (OPtr (Some o))))); [|apply G].
    induction o using object_ind'; try (split; intros K P; cbn [normal];
      try match goal with |- same_object (OPtr (Some ?x)) (OPtr (Some ?y)) => change (same_object x y) end; apply same_keep; (apply same_struct; [exact K|exact P])).
    - assert (H' : forall m, Forall object_ok m -> Forall (object_plain zs) m -> incl m l -> Forall2 same_object m (map (normal zs skip) m)).
      { induction m as [|x m IHm]; intros F1 F2 IN; constructor.
        - rewrite Forall_forall in H. destruct (H x (IN _ (or_introl eq_refl))) as [A _]. inversion F1; inversion F2; subst. auto.
        - inversion F1; inversion F2; subst. apply IHm; auto. intros y Y. apply IN. now right. }
      split; intros K P; cbn [object_ok object_plain] in K, P; apply all_ok in K; apply all_plain in P; apply same_slice, H'; auto using incl_refl.
    - destruct IHo as [I1 I2]. split; [intros K P; apply I2; assumption|intros []].
  Qed.
  Lemma object_back skip o text : object_ok o -> object_plain zs o -> to_text zs o = Ok text ->
    exists d, from_text zs skip text = Some (Ok d) /\ same_object o d /\ (zones_law zs -> to_text zs d = Ok text).
  Proof.
    intros K P T. exists (normal zs skip o). split; [now apply round_trip|]. split; [now apply same_normal|]. intros L. rewrite normal_text by assumption. exact T.
  Qed.
  Lemma object_text o1 o2 text : object_ok o1 -> object_ok o2 -> object_plain zs o1 -> object_plain zs o2 -> to_text zs o1 = Ok text -> to_text zs o2 = Ok text -> same_object o1 o2.
  Proof.
    intros K1 K2 P1 P2 T1 T2. apply (same_object_both _ _ (normal zs true o1)); [now apply same_normal|]. rewrite (text_inj zs o1 o2 text) by assumption. now apply same_normal.
  Qed.
End Same.
