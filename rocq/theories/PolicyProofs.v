(** Lemmas for C48-C53. *)
From Verif Require Import Base BaseLemmas PolicyModel.

(** ** Lists *)
Lemma contains_in l x : contains l x = true <-> In x l.
Proof.
  unfold contains. rewrite existsb_exists. split.
  - intros (y & Hy & E). apply beqb_eq in E as ->. exact Hy.
  - intros Hi. exists x. split; [exact Hi|apply beqb_refl].
Qed.
Lemma contains_spec l x : reflect (In x l) (contains l x).
Proof. apply iff_reflect. symmetry. apply contains_in. Qed.

Lemma add_all_app m l l' : add_all m (l ++ l') = add_all (add_all m l) l'.
Proof. revert m. induction l as [|x l IH]; intros m; cbn; [reflexivity|apply IH]. Qed.
Lemma add_all_in m l x : In x (add_all m l) <-> In x m \/ In x l.
Proof.
  revert m. induction l as [|y l IH]; intros m; cbn; [tauto|]. rewrite IH.
  destruct (contains_spec m y) as [Hy|Hy]; cbn; [|tauto].
  split; [tauto|]. intros [Hm|[->|Hl]]; tauto.
Qed.
Lemma add_all_length m l : length (add_all m l) <= length m + length l.
Proof.
  revert m. induction l as [|y l IH]; intros m; cbn; [lia|]. specialize (IH (if contains m y then m else y :: m)).
  destruct (contains m y); cbn in *; lia.
Qed.
Lemma add_all_full m l : length (add_all m l) = length m + length l <-> (NoDup l /\ forall x, In x l -> ~ In x m).
Proof.
  revert m. induction l as [|y l IH]; intros m; cbn.
  - split; [|lia]. intros _. split; [constructor|tauto].
  - pose proof (add_all_length (if contains m y then m else y :: m) l) as Hl.
    destruct (contains_spec m y) as [Hy|Hy].
    + split; [lia|]. intros [_ Hd]. elim (Hd y); auto.
    + specialize (IH (y :: m)). cbn in IH. rewrite Nat.add_succ_r. rewrite IH. split.
      * intros [Hn Hd]. split.
        -- constructor; [|exact Hn]. intros Hi. elim (Hd y Hi). auto.
        -- intros x [->|Hi]; [exact Hy|]. intros Hm. elim (Hd x Hi). auto.
      * intros [Hn Hd]. inversion Hn; subst. split; [assumption|]. intros x Hi [->|Hm]; [contradiction|]. elim (Hd x); auto.
Qed.
Lemma validate_iff a : validate_attributes a = true <-> NoDup (a_cas a) /\ NoDup (a_allowed a ++ a_disallowed a ++ a_excluded a).
Proof.
  unfold validate_attributes.
  pose proof (add_all_full [] (a_cas a)) as H1. pose proof (add_all_length [] (a_cas a)) as L1.
  rewrite <- !add_all_app.
  pose proof (add_all_full [] (a_allowed a ++ a_disallowed a ++ a_excluded a)) as H2.
  pose proof (add_all_length [] (a_allowed a ++ a_disallowed a ++ a_excluded a)) as L2.
  rewrite !app_length in H2, L2. cbn [length] in *.
  destruct (Nat.ltb_spec (length (add_all [] (a_cas a))) (length (a_cas a))) as [Hlt|Hge].
  - split; [discriminate|]. intros [Hn _]. destruct H1 as [_ H1]. rewrite H1 in Hlt; [lia|]. split; [exact Hn|tauto].
  - destruct (Nat.ltb_spec (length (add_all [] (a_allowed a ++ a_disallowed a ++ a_excluded a)))
      (length (a_allowed a) + length (a_disallowed a) + length (a_excluded a))) as [Hlt|Hge2]; cbn [negb].
    + split; [discriminate|]. intros [_ Hn]. destruct H2 as [_ H2]. rewrite H2 in Hlt; [lia|]. split; [exact Hn|tauto].
    + split; [|reflexivity]. intros _. split; [apply H1; lia|apply H2; lia].
Qed.

(** ** Strings *)
Lemma cut_suffix_some s x t : cut_suffix s x = Some t <-> s = t ++ x.
Proof.
  revert t. induction s as [|c s IH]; intros t; cbn [cut_suffix].
  - destruct (beqb_spec [] x) as [<-|Hn].
    + split; [intros [= <-]; reflexivity|]. destruct t; [reflexivity|discriminate].
    + split; [discriminate|]. destruct t, x; cbn; congruence.
  - destruct (beqb_spec (c :: s) x) as [<-|Hn].
    + split; [intros [= <-]; reflexivity|]. intros E. f_equal.
      apply (f_equal (@length byte)) in E. rewrite app_length in E. destruct t; [reflexivity|cbn in E; lia].
    + destruct (cut_suffix s x) as [r|] eqn:Q.
      * split.
        -- intros [= <-]. cbn. f_equal. apply IH. reflexivity.
        -- destruct t as [|c' t]; cbn; [congruence|]. intros [= <- E]. f_equal. f_equal.
           apply IH in E. congruence.
      * split; [discriminate|]. destruct t as [|c' t]; cbn; [congruence|]. intros [= <- E]. apply IH in E. discriminate.
Qed.
Lemma cut_suffix_none s x : cut_suffix s x = None <-> forall t, s <> t ++ x.
Proof.
  split.
  - intros Hn t E. apply cut_suffix_some in E. congruence.
  - intros Hn. destruct (cut_suffix s x) as [t|] eqn:Q; [|reflexivity]. apply cut_suffix_some in Q. elim (Hn t Q).
Qed.

(** [undot s s']: [s'] is [s] without one trailing dot, if it has one. *)
Definition undot (s s' : bytes) : Prop := s = s' ++ [x2e] \/ (s' = s /\ forall u, s <> u ++ [x2e]).
Lemma drop_dot_spec s s' : undot s s' <-> drop_dot s = s'.
Proof.
  unfold undot, drop_dot. split.
  - intros [E|[-> Hn]].
    + apply cut_suffix_some in E. rewrite E. reflexivity.
    + apply cut_suffix_none in Hn. rewrite Hn. reflexivity.
  - destruct (cut_suffix s [x2e]) as [r|] eqn:Q; intros <-.
    + left. apply cut_suffix_some. exact Q.
    + right. split; [reflexivity|]. apply cut_suffix_none. exact Q.
Qed.
(** [last_label t l]: [l] is the part of [t] after its last dot. *)
Definition last_label (t l : bytes) : Prop := ~ In x2e l /\ (t = l \/ exists u, t = u ++ x2e :: l).
Lemma split_dots_nonempty s : split_dots s <> [].
Proof. destruct s as [|c s]; cbn; [discriminate|]. destruct (Byte.eqb c x2e); [discriminate|]. destruct (split_dots s); discriminate. Qed.
Lemma last_label_split t l : last_label t l <-> last (split_dots t) [] = l.
Proof.
  assert (Hone : forall t, ~ In x2e t -> split_dots t = [t]).
  { clear. induction t as [|c t IH]; cbn; [reflexivity|]. intros Hn.
    destruct (Byte.eqb c x2e) eqn:E; [apply byte_eqb_eq in E; subst; tauto|]. rewrite IH by tauto. reflexivity. }
  assert (Hsome : forall u l, ~ In x2e l -> last (split_dots (u ++ x2e :: l)) [] = l /\ 2 <= length (split_dots (u ++ x2e :: l))).
  { clear - Hone. induction u as [|c u IH]; intros l Hn; cbn [app split_dots].
    - replace (Byte.eqb x2e x2e) with true by reflexivity. rewrite (Hone l Hn). cbn. split; [reflexivity|lia].
    - destruct (IH l Hn) as [Hl H2].
      destruct (split_dots (u ++ x2e :: l)) as [|p [|q r]] eqn:Q; cbn [length] in H2; try lia.
      destruct (Byte.eqb c x2e); cbn [last length] in *; split; auto; lia. }
  split.
  - intros [Hn [->|[u ->]]]; [rewrite (Hone _ Hn); reflexivity|apply Hsome; exact Hn].
  - revert l. induction t as [|c t IH]; intros l E.
    + cbn in E. subst l. split; [tauto|auto].
    + cbn [split_dots] in E. destruct (Byte.eqb c x2e) eqn:Ec.
      * apply byte_eqb_eq in Ec as ->. destruct (split_dots t) as [|p r] eqn:Q; [elim (split_dots_nonempty t Q)|].
        cbn [last] in E. destruct (IH l) as [Hn Hc]; [exact E|]. split; [exact Hn|]. right.
        destruct Hc as [->|[u ->]]; [exists []; reflexivity|exists (x2e :: u); reflexivity].
      * destruct (split_dots t) as [|p r] eqn:Q; [elim (split_dots_nonempty t Q)|].
        destruct r as [|q r].
        -- cbn in E. subst l. destruct (IH p eq_refl) as [Hn Hc]. split.
           ++ intros [->|Hi]; [discriminate Ec|contradiction].
           ++ destruct Hc as [->|[u ->]]; [auto|]. destruct (Hsome u p Hn) as [_ H2]. rewrite Q in H2. cbn in H2. lia.
        -- destruct (IH l) as [Hn Hc]; [exact E|]. split; [exact Hn|]. right.
           destruct Hc as [->|[u ->]]; [|exists (c :: u); reflexivity].
           rewrite (Hone _ Hn) in Q. discriminate.
Qed.

(** ** C48 *)
Inductive wild (a : attributes) : validity -> Prop :=
| wild_allowed : In star (a_allowed a) -> wild a Allowed
| wild_disallowed : ~ In star (a_allowed a) -> In star (a_disallowed a) -> wild a Disallowed
| wild_excluded : ~ In star (a_allowed a) -> ~ In star (a_disallowed a) -> In star (a_excluded a) -> wild a Excluded
| wild_none : ~ In star (a_allowed a) -> ~ In star (a_disallowed a) -> ~ In star (a_excluded a) -> wild a Allowed.
Inductive decides (a : attributes) (l : bytes) : validity -> Prop :=
| dec_allowed : In l (a_allowed a) -> decides a l Allowed
| dec_disallowed : ~ In l (a_allowed a) -> In l (a_disallowed a) -> decides a l Disallowed
| dec_excluded : ~ In l (a_allowed a) -> ~ In l (a_disallowed a) -> In l (a_excluded a) -> decides a l Excluded
| dec_wild v : ~ In l (a_allowed a) -> ~ In l (a_disallowed a) -> ~ In l (a_excluded a) -> wild a v -> decides a l v.
Lemma check_not_applicable a pd d pd' d' : undot pd pd' -> undot d d' ->
  check_domain a pd d = NotApplicable <-> forall t, d' <> t ++ x2e :: pd'.
Proof.
  intros Hp Hd. apply drop_dot_spec in Hp. apply drop_dot_spec in Hd. unfold check_domain. rewrite Hp, Hd.
  destruct (cut_suffix d' (x2e :: pd')) as [t|] eqn:Q.
  - split; [|intros Hn; apply cut_suffix_some in Q; elim (Hn t Q)].
    repeat match goal with |- context [contains ?x ?y] => destruct (contains x y) end; discriminate.
  - split; [|reflexivity]. intros _. apply cut_suffix_none. exact Q.
Qed.
Lemma check_decides a pd d pd' t l : undot pd pd' -> undot d (t ++ x2e :: pd') -> last_label t l -> decides a l (check_domain a pd d).
Proof.
  intros Hp Hd Hl. apply drop_dot_spec in Hp. apply drop_dot_spec in Hd. apply last_label_split in Hl. unfold check_domain. rewrite Hp, Hd.
  assert (Q : cut_suffix (t ++ x2e :: pd') (x2e :: pd') = Some t) by (apply cut_suffix_some; reflexivity). rewrite Q, Hl. clear Q.
  destruct (contains_spec (a_allowed a) l); [constructor; assumption|].
  destruct (contains_spec (a_disallowed a) l); [constructor; assumption|].
  destruct (contains_spec (a_excluded a) l); [constructor; assumption|].
  apply dec_wild; try assumption.
  destruct (contains_spec (a_allowed a) star); [constructor; assumption|].
  destruct (contains_spec (a_disallowed a) star); [constructor; assumption|].
  destruct (contains_spec (a_excluded a) star); [constructor; assumption|].
  apply wild_none; assumption.
Qed.
Lemma NoDup_app_l {A} (l l' : list A) x : NoDup (l ++ l') -> In x l -> ~ In x l'.
Proof.
  induction l as [|y l IH]; cbn; [tauto|]. intros Hn. inversion Hn; subst. intros [->|Hi].
  - intros Hc. apply H1. apply in_or_app. auto.
  - apply IH; assumption.
Qed.
Lemma NoDup_app_r {A} (l l' : list A) : NoDup (l ++ l') -> NoDup l'.
Proof. induction l as [|y l IH]; cbn; [tauto|]. intros Hn. inversion Hn; auto. Qed.
Lemma one_list a l : validate_attributes a = true ->
  ~ (In l (a_allowed a) /\ In l (a_disallowed a)) /\ ~ (In l (a_allowed a) /\ In l (a_excluded a)) /\ ~ (In l (a_disallowed a) /\ In l (a_excluded a)).
Proof.
  intros Hv. apply validate_iff in Hv as [_ Hn].
  repeat split; intros [H1 H2].
  - apply (NoDup_app_l _ _ l Hn H1). apply in_or_app. auto.
  - apply (NoDup_app_l _ _ l Hn H1). apply in_or_app. auto.
  - apply NoDup_app_r in Hn. exact (NoDup_app_l _ _ l Hn H1 H2).
Qed.

(** ** C50 *)
Lemma equal_slices_spec {A} (eq : A -> A -> bool) a b : equal_slices eq a b = true <-> Forall2 (fun x y => eq x y = true) a b.
Proof.
  revert b. induction a as [|x a IH]; intros [|y b]; cbn.
  - split; [constructor|reflexivity].
  - split; [discriminate|inversion 1].
  - split; [discriminate|inversion 1].
  - rewrite andb_true_iff, IH. split; [intros []; constructor; assumption|inversion 1; auto].
Qed.
Lemma Forall2_eq {A} (a b : list A) : Forall2 eq a b <-> a = b.
Proof. split; [induction 1; congruence|intros <-; induction a; constructor; auto]. Qed.
Lemma Forall2_iff {A B} (P Q : A -> B -> Prop) a b : (forall x y, P x y <-> Q x y) -> Forall2 P a b <-> Forall2 Q a b.
Proof. intros Hi. split; induction 1; constructor; auto; apply Hi; assumption. Qed.
Lemma equal_strings a b : equal_slices beqb a b = true <-> a = b.
Proof. rewrite equal_slices_spec. rewrite (Forall2_iff _ eq); [apply Forall2_eq|]. intros. apply beqb_eq. Qed.
Lemma slice_equal_spec a b : slice_equal a b = true <-> content a = content b.
Proof. apply beqb_eq. Qed.

(** Two times that Time.Equal compares by their instants. *)
Definition wall (a b : time) : Prop := t_mono a = None \/ t_mono b = None.
Lemma time_equal_wall a b : wall a b -> time_equal a b = true <-> t_ns a = t_ns b.
Proof.
  unfold wall, time_equal. intros Hw. destruct (t_mono a) eqn:E1, (t_mono b) eqn:E2; try apply Z.eqb_eq. destruct Hw; discriminate.
Qed.

(** The same values in all fields, apart from JSONField. *)
Definition same_attr (a b : attributes) : Prop :=
  a_cas a = a_cas b /\ a_allowed a = a_allowed b /\ a_disallowed a = a_disallowed b /\ a_excluded a = a_excluded b.
Definition same_fields (a b : fields) : Prop :=
  f_version a = f_version b /\ f_serial a = f_serial b /\ f_domain a = f_domain b /\ t_ns (f_not_before a) = t_ns (f_not_before b) /\
  t_ns (f_not_after a) = t_ns (f_not_after b) /\ f_can_issue a = f_can_issue b /\ f_can_own a = f_can_own b /\
  content (f_key a) = content (f_key b) /\ f_key_alg a = f_key_alg b /\ f_sig_alg a = f_sig_alg b /\ t_ns (f_stamp a) = t_ns (f_stamp b) /\
  same_attr (f_attr a) (f_attr b) /\ content (f_owner_sig a) = content (f_owner_sig b) /\ content (f_owner_hash a) = content (f_owner_hash b).
Definition same_ts (a b : timestamp) : Prop :=
  ts_version a = ts_version b /\ content (ts_log a) = content (ts_log b) /\ t_ns (ts_added a) = t_ns (ts_added b) /\
  content (ts_sig a) = content (ts_sig b).
Definition same_cert (a b : cert) : Prop :=
  same_fields (c_fields a) (c_fields b) /\ content (c_issuer_sig a) = content (c_issuer_sig b) /\
  content (c_issuer_hash a) = content (c_issuer_hash b) /\ Forall2 same_ts (c_spcts a) (c_spcts b).
Definition same_rev (a b : revocation) : Prop :=
  r_version a = r_version b /\ r_serial a = r_serial b /\ r_domain a = r_domain b /\ t_ns (r_stamp a) = t_ns (r_stamp b) /\
  content (r_owner_sig a) = content (r_owner_sig b) /\ content (r_owner_hash a) = content (r_owner_hash b) /\
  content (r_issuer_sig a) = content (r_issuer_sig b) /\ content (r_issuer_hash a) = content (r_issuer_hash b) /\
  Forall2 same_ts (r_spcrts a) (r_spcrts b).
(** No time in the object has a monotonic reading: it was decoded, or made of decoded or computed times. *)
Definition fields_wall (f : fields) : Prop := t_mono (f_not_before f) = None /\ t_mono (f_not_after f) = None /\ t_mono (f_stamp f) = None.
Definition cert_wall (c : cert) : Prop := fields_wall (c_fields c) /\ Forall (fun t => t_mono (ts_added t) = None) (c_spcts c).

Lemma attr_equal_spec a b : attr_equal a b = true <-> same_attr a b.
Proof. unfold attr_equal, same_attr. rewrite !andb_true_iff, !equal_strings. tauto. Qed.
Lemma fields_equal_spec a b : fields_wall a \/ fields_wall b -> fields_equal a b = true <-> same_fields a b.
Proof.
  intros Hw. unfold fields_equal, same_fields.
  rewrite !andb_true_iff, !Z.eqb_eq, beqb_eq, !slice_equal_spec, !eqb_true_iff, attr_equal_spec.
  rewrite !time_equal_wall by (unfold wall; destruct Hw as [(?&?&?)|(?&?&?)]; auto). tauto.
Qed.
Lemma ts_equal_spec a b : t_mono (ts_added a) = None \/ t_mono (ts_added b) = None -> ts_equal a b = true <-> same_ts a b.
Proof.
  intros Hw. unfold ts_equal, same_ts. rewrite !andb_true_iff, Z.eqb_eq, !slice_equal_spec, time_equal_wall by exact Hw. tauto.
Qed.
Lemma ts_list_spec l l' : Forall (fun t => t_mono (ts_added t) = None) l \/ Forall (fun t => t_mono (ts_added t) = None) l' ->
  equal_slices ts_equal l l' = true <-> Forall2 same_ts l l'.
Proof.
  revert l'. induction l as [|x l IH]; intros [|y l'] Hw; cbn.
  - split; [constructor|reflexivity].
  - split; [discriminate|inversion 1].
  - split; [discriminate|inversion 1].
  - rewrite andb_true_iff. rewrite IH, ts_equal_spec by (destruct Hw as [Hw|Hw]; inversion Hw; auto).
    split; [intros []; constructor; assumption|inversion 1; auto].
Qed.
Lemma cert_equal_spec a b : cert_wall a \/ cert_wall b -> cert_equal a b = true <-> same_cert a b.
Proof.
  intros Hw. unfold cert_equal, same_cert. rewrite !andb_true_iff, !slice_equal_spec.
  rewrite fields_equal_spec, ts_list_spec by (destruct Hw as [[? ?]|[? ?]]; auto). tauto.
Qed.
Lemma time_equal_refl t : time_equal t t = true.
Proof. unfold time_equal. destruct (t_mono t); apply Z.eqb_refl. Qed.
Lemma time_equal_sym a b : time_equal a b = time_equal b a.
Proof. unfold time_equal. destruct (t_mono a), (t_mono b); apply Z.eqb_sym. Qed.
Lemma slice_equal_sym a b : slice_equal a b = slice_equal b a.
Proof. apply beqb_sym. Qed.
Lemma equal_slices_sym {A} (eq : A -> A -> bool) a b : (forall x y, eq x y = eq y x) -> equal_slices eq a b = equal_slices eq b a.
Proof. intros Hs. revert b. induction a as [|x a IH]; intros [|y b]; cbn; auto. rewrite Hs, IH. reflexivity. Qed.
Lemma equal_slices_refl {A} (eq : A -> A -> bool) a : (forall x, eq x x = true) -> equal_slices eq a a = true.
Proof. intros Hs. induction a as [|x a IH]; cbn; auto. rewrite Hs. exact IH. Qed.
Lemma attr_equal_sym a b : attr_equal a b = attr_equal b a.
Proof. unfold attr_equal. rewrite (equal_slices_sym beqb (a_cas a)), (equal_slices_sym beqb (a_allowed a)), (equal_slices_sym beqb (a_disallowed a)),
    (equal_slices_sym beqb (a_excluded a)) by apply beqb_sym. reflexivity. Qed.
Lemma eqb_sym' a b : Bool.eqb a b = Bool.eqb b a.
Proof. destruct a, b; reflexivity. Qed.
Lemma fields_equal_sym a b : fields_equal a b = fields_equal b a.
Proof.
  unfold fields_equal. rewrite (attr_equal_sym (f_attr a)), (Z.eqb_sym (f_version a)), (Z.eqb_sym (f_serial a)), (Z.eqb_sym (f_key_alg a)), (Z.eqb_sym (f_sig_alg a)),
    (slice_equal_sym (f_key a)), (slice_equal_sym (f_owner_sig a)), (slice_equal_sym (f_owner_hash a)), (time_equal_sym (f_not_before a)),
    (time_equal_sym (f_not_after a)), (time_equal_sym (f_stamp a)), (eqb_sym' (f_can_issue a)), (eqb_sym' (f_can_own a)), (beqb_sym (f_domain a)).
  reflexivity.
Qed.
Lemma ts_equal_sym a b : ts_equal a b = ts_equal b a.
Proof. unfold ts_equal. rewrite (Z.eqb_sym (ts_version a)), (slice_equal_sym (ts_log a)), (slice_equal_sym (ts_sig a)), (time_equal_sym (ts_added a)). reflexivity. Qed.
Lemma cert_equal_sym a b : cert_equal a b = cert_equal b a.
Proof.
  unfold cert_equal. rewrite (fields_equal_sym (c_fields a)), (slice_equal_sym (c_issuer_sig a)), (slice_equal_sym (c_issuer_hash a)), (equal_slices_sym ts_equal) by apply ts_equal_sym. reflexivity.
Qed.
Lemma slice_equal_refl a : slice_equal a a = true.
Proof. apply beqb_refl. Qed.
Lemma fields_equal_refl a : fields_equal a a = true.
Proof.
  unfold fields_equal, attr_equal. rewrite !Z.eqb_refl, !slice_equal_refl, !time_equal_refl, !eqb_reflx, beqb_refl.
  rewrite !equal_slices_refl by apply beqb_refl. reflexivity.
Qed.
Lemma cert_equal_refl a : cert_equal a a = true.
Proof.
  unfold cert_equal. rewrite fields_equal_refl, !slice_equal_refl. apply equal_slices_refl. intros t. unfold ts_equal.
  rewrite Z.eqb_refl, !slice_equal_refl, time_equal_refl. reflexivity.
Qed.
Lemma time_same_refl t : time_same t t = true.
Proof. unfold time_same. rewrite Z.eqb_refl, Nat.eqb_refl. destruct (t_mono t); [apply Z.eqb_refl|reflexivity]. Qed.
Lemma time_same_spec a b : time_same a b = true <-> a = b.
Proof.
  split; [|intros ->; apply time_same_refl]. unfold time_same. rewrite !andb_true_iff. intros [[H1 H2] H3].
  apply Z.eqb_eq in H1. apply Nat.eqb_eq in H2. destruct a as [n m l], b as [n' m' l']. cbn in *. subst.
  destruct m, m'; try discriminate; [apply Z.eqb_eq in H3; subst|]; reflexivity.
Qed.
Lemma rev_equal_spec a b :
  Forall (fun t => t_mono (ts_added t) = None) (r_spcrts a) \/ Forall (fun t => t_mono (ts_added t) = None) (r_spcrts b) ->
  rev_equal a b = true <-> same_rev a b /\ r_stamp a = r_stamp b.
Proof.
  intros Hw. unfold rev_equal, same_rev. rewrite !andb_true_iff, !Z.eqb_eq, beqb_eq, !slice_equal_spec, time_same_spec, ts_list_spec by exact Hw.
  split; [|tauto]. intros Hq. repeat match goal with Hx : _ /\ _ |- _ => destruct Hx end. repeat split; try assumption. congruence.
Qed.
Lemma same_ts_trans l1 l2 l3 : Forall2 same_ts l1 l2 -> Forall2 same_ts l2 l3 -> Forall2 same_ts l1 l3.
Proof.
  intros Hq. revert l3. induction Hq as [|x y l l' Hxy Hl IH]; intros l3 Hr; inversion Hr; subst; constructor.
  - unfold same_ts in *. intuition congruence.
  - apply IH. assumption.
Qed.
Lemma same_cert_trans a b c : same_cert a b -> same_cert b c -> same_cert a c.
Proof.
  intros (H1 & H2 & H3 & H4) (H1' & H2' & H3' & H4'). repeat split; try congruence; try (unfold same_fields, same_attr in *; intuition congruence).
  exact (same_ts_trans _ _ _ H4 H4').
Qed.

(** ** C51 *)
Section Crypto.
  Variable H : bytes -> bytes.
  Variable enc : cert -> option bytes.
  Variables priv pub : Type.
  Variable rsa_sign : priv -> bytes -> option bytes.
  Variable rsa_verify : pub -> bytes -> bytes -> bool.
  Variable parse_key : bytes -> option pub.
  Notation hash_as_signer := (hash_as_signer H enc).
  Notation to_json := (to_json enc).
  Notation sign_as_owner := (sign_as_owner H enc priv rsa_sign).
  Notation verify_owner_cert := (verify_owner_cert H enc pub rsa_verify parse_key).
  Notation verify_owner := (verify_owner H enc pub rsa_verify parse_key).
  Notation sign_cert_as_issuer := (sign_cert_as_issuer H enc priv rsa_sign).
  Notation sign_request_as_issuer := (sign_request_as_issuer H enc priv rsa_sign).
  Notation verify_issuer := (verify_issuer H enc pub rsa_verify parse_key).

  Lemma to_json_view c c' : json_view c = json_view c' -> to_json c = to_json c'.
  Proof. intros E. unfold PolicyModel.to_json. rewrite E. reflexivity. Qed.

  Lemma sign_owner_changes owner k req req' b : sign_as_owner owner k req = (req', b) ->
    (b = false -> req' = req) /\ req' = set_owner req (f_owner_sig req') (f_owner_hash req').
  Proof.
    assert (Hid : forall r, r = set_owner r (f_owner_sig r) (f_owner_hash r)) by (intros []; reflexivity).
    unfold PolicyModel.sign_as_owner.
    destruct (is_nil (f_owner_sig req)) eqn:Es; cbn [negb orb]; [|intros [= <- <-]; auto].
    destruct (is_nil (f_owner_hash req)) eqn:Eh; cbn [negb]; [|intros [= <- <-]; auto].
    destruct (f_can_own (c_fields owner)); cbn [negb]; [|intros [= <- <-]; auto].
    destruct (hash_as_signer owner) as [h|]; [|intros [= <- <-]; auto].
    destruct (sign_struct _ _ _ _ _ k) as [s|]; intros [= <- <-].
    - split; [discriminate|]. destruct req; reflexivity.
    - destruct req as [? ? ? ? ? ? ? ? ? ? ? ? ? os oh]. cbn in *. destruct os, oh; try discriminate. cbn. auto.
  Qed.

  Definition key_pair (k : priv) (owner : cert) : Prop :=
    exists pk, parse_key (content (f_key (c_fields owner))) = Some pk /\ forall h s, rsa_sign k h = Some s -> rsa_verify pk h s = true.
  (** The certificate made of the request, whatever the issuer and the logs added, and possibly decoded from JSON. *)
  Definition made_of (req : fields) (c : cert) : Prop := fields_view (c_fields c) = fields_view req.
  (** The owner's certificate, whatever its issuer signature and its timestamps. *)
  Definition same_owner (o o' : cert) : Prop := fields_view (c_fields o) = fields_view (c_fields o') /\ c_issuer_hash o = c_issuer_hash o'.
  Lemma hash_same o o' : same_owner o o' -> hash_as_signer o = hash_as_signer o'.
  Proof.
    intros [Hf Hi]. unfold PolicyModel.hash_as_signer. rewrite (to_json_view (as_signer o) (as_signer o')); [reflexivity|].
    unfold json_view, as_signer. cbn. rewrite Hf, Hi. reflexivity.
  Qed.
  Lemma owner_verifies owner k req req' owner' c :
    sign_as_owner owner k req = (req', true) -> key_pair k owner -> same_owner owner owner' -> made_of req' c ->
    verify_owner_cert owner' c = (c, true).
  Proof.
    intros Hs [pk [Hk Hv]] Ho Hc. unfold PolicyModel.sign_as_owner in Hs.
    destruct (is_nil (f_owner_sig req)) eqn:Es; cbn [negb orb] in Hs; [|discriminate].
    destruct (is_nil (f_owner_hash req)) eqn:Eh; cbn [negb] in Hs; [|discriminate].
    destruct (f_can_own (c_fields owner)); cbn [negb] in Hs; [|discriminate].
    destruct (hash_as_signer owner) as [h|] eqn:Qh; [|discriminate].
    destruct (sign_struct _ _ _ _ _ k) as [s|] eqn:Qs; [|discriminate]. injection Hs as <-.
    unfold PolicyModel.verify_owner_cert. rewrite <- (hash_same _ _ Ho), Qh.
    unfold made_of in Hc. set (r2 := set_owner (set_owner req (f_owner_sig req) (Some h)) (Some s) (Some h)) in *.
    assert (E1 : f_owner_hash (c_fields c) = Some h).
    { change (f_owner_hash (c_fields c)) with (f_owner_hash (fields_view (c_fields c))). rewrite Hc. reflexivity. }
    assert (E2 : f_owner_sig (c_fields c) = Some s).
    { change (f_owner_sig (c_fields c)) with (f_owner_sig (fields_view (c_fields c))). rewrite Hc. reflexivity. }
    rewrite E1. cbn [content]. rewrite beqb_refl. cbn [negb].
    assert (E3 : f_key (c_fields owner') = f_key (c_fields owner)).
    { destruct Ho as [Hf _]. change (f_key (c_fields owner')) with (f_key (fields_view (c_fields owner'))). rewrite <- Hf. reflexivity. }
    rewrite E3, Hk. unfold sign_struct in Qs.
    rewrite <- (to_json_view (cert_of_request (set_owner req (f_owner_sig req) (Some h))) (strip_for_owner c)).
    - destruct (to_json (cert_of_request (set_owner req (f_owner_sig req) (Some h)))) as [b|]; [|discriminate].
      rewrite E2. cbn [content]. rewrite (Hv _ _ Qs). reflexivity.
    - unfold json_view, cert_of_request, strip_for_owner. cbn [c_fields c_issuer_sig c_issuer_hash c_spcts map]. f_equal.
      assert (E : fields_view (set_owner (c_fields c) None (f_owner_hash (c_fields c))) = set_owner (fields_view (c_fields c)) None (f_owner_hash (c_fields c))) by reflexivity.
      rewrite E, E1, Hc. unfold r2. destruct req as [? ? ? ? ? ? ? ? ? ? ? ? ? os oh]. cbn in Es. destruct os; [discriminate|]. reflexivity.
  Qed.
  Lemma owner_verifies_request owner k req req' : sign_as_owner owner k req = (req', true) -> key_pair k owner -> verify_owner owner req' = true.
  Proof.
    intros Hs Hk. unfold PolicyModel.verify_owner. rewrite (owner_verifies owner k req req' owner _ Hs Hk); [reflexivity| |].
    - split; reflexivity.
    - unfold made_of. reflexivity.
  Qed.
  Lemma issuer_changes issuer k c c' b : sign_cert_as_issuer issuer k c = (c', b) ->
    c_fields c' = c_fields c /\ c_spcts c' = c_spcts c /\ (b = false -> c' = c).
  Proof.
    assert (Hid : forall x : cert, x = x) by reflexivity. unfold PolicyModel.sign_cert_as_issuer.
    destruct (is_nil (c_issuer_sig c)) eqn:Es; cbn [negb orb]; [|intros [= <- <-]; auto].
    destruct (is_nil (c_issuer_hash c)) eqn:Eh; cbn [negb]; [|intros [= <- <-]; auto].
    destruct (hash_as_signer issuer) as [h|]; [|intros [= <- <-]; auto].
    destruct (sign_struct _ _ _ _ _ k) as [s|]; intros [= <- <-]; cbn.
    - repeat split. discriminate.
    - destruct c as [? is ih ?]. cbn in *. destruct is, ih; try discriminate. auto.
  Qed.
  Lemma issuer_verifies issuer k c c' issuer' : sign_cert_as_issuer issuer k c = (c', true) -> key_pair k issuer -> same_owner issuer issuer' ->
    verify_issuer issuer' c' = (c', true).
  Proof.
    intros Hs [pk [Hk Hv]] Ho. unfold PolicyModel.sign_cert_as_issuer in Hs.
    destruct (is_nil (c_issuer_sig c)) eqn:Es; cbn [negb orb] in Hs; [|discriminate].
    destruct (is_nil (c_issuer_hash c)) eqn:Eh; cbn [negb] in Hs; [|discriminate].
    destruct (hash_as_signer issuer) as [h|] eqn:Qh; [|discriminate].
    destruct (sign_struct _ _ _ _ _ k) as [s|] eqn:Qs; [|discriminate]. injection Hs as <-.
    unfold PolicyModel.verify_issuer. rewrite <- (hash_same _ _ Ho), Qh. cbn [c_issuer_hash content]. rewrite beqb_refl. cbn [negb].
    assert (E3 : f_key (c_fields issuer') = f_key (c_fields issuer)).
    { destruct Ho as [Hf _]. change (f_key (c_fields issuer')) with (f_key (fields_view (c_fields issuer'))). rewrite <- Hf. reflexivity. }
    rewrite E3, Hk. unfold sign_struct in Qs. cbn [c_fields c_issuer_sig c_issuer_hash c_spcts] in *.
    destruct c as [f is ih sp]. cbn in Es, Qs |- *. destruct is; [discriminate|].
    destruct (to_json _) as [b|]; [|discriminate]. rewrite (Hv _ _ Qs). reflexivity.
  Qed.
  Lemma verify_owner_keeps owner c c' b : to_json (strip_for_owner c) <> None -> verify_owner_cert owner c = (c', b) -> c' = c.
  Proof.
    intros Hj. unfold PolicyModel.verify_owner_cert. destruct (to_json (strip_for_owner c)); [|congruence].
    destruct (hash_as_signer owner); [|intros [= <- _]; reflexivity].
    destruct (negb _); [intros [= <- _]; reflexivity|].
    destruct (parse_key _); intros [= <- _]; reflexivity.
  Qed.
  Lemma verify_true_keeps owner c c' : verify_owner_cert owner c = (c', true) -> c' = c.
  Proof.
    unfold PolicyModel.verify_owner_cert.
    destruct (hash_as_signer owner); [|discriminate]. destruct (negb _); [discriminate|].
    destruct (parse_key _); [|discriminate]. destruct (to_json _); [intros [= <- _]; reflexivity|discriminate].
  Qed.
  (** What a verified owner signature says. *)
  Lemma verified_says owner c : snd (verify_owner_cert owner c) = true ->
    exists pk b h, hash_as_signer owner = Some h /\ content (f_owner_hash (c_fields c)) = h /\
      parse_key (content (f_key (c_fields owner))) = Some pk /\ to_json (strip_for_owner c) = Some b /\
      rsa_verify pk (H b) (content (f_owner_sig (c_fields c))) = true.
  Proof.
    unfold PolicyModel.verify_owner_cert. destruct (hash_as_signer owner) as [h|] eqn:Qh; [|discriminate].
    destruct (beqb_spec (content (f_owner_hash (c_fields c))) h) as [E|]; cbn [negb]; [|discriminate].
    destruct (parse_key _) as [pk|] eqn:Qk; [|discriminate]. destruct (to_json (strip_for_owner c)) as [b|] eqn:Qb; [|discriminate].
    cbn. intros Hv. exists pk, b, h. auto.
  Qed.
  (** Two certificates with the same signature have the same signed text. *)
  Lemma signature_binds (G : bytes -> Prop) owner c c' :
    (forall x y, G x -> G y -> H x = H y -> x = y) ->
    (forall pk h h' s, rsa_verify pk h s = true -> rsa_verify pk h' s = true -> h = h') ->
    (forall b, to_json (strip_for_owner c) = Some b -> G b) -> (forall b, to_json (strip_for_owner c') = Some b -> G b) ->
    snd (verify_owner_cert owner c) = true -> snd (verify_owner_cert owner c') = true ->
    content (f_owner_sig (c_fields c)) = content (f_owner_sig (c_fields c')) ->
    exists b, to_json (strip_for_owner c) = Some b /\ to_json (strip_for_owner c') = Some b.
  Proof.
    intros Hc Hu Hg Hg' H1 H2 Es. apply verified_says in H1 as (pk & b & h & Qh & Eh & Qk & Qb & Hv).
    apply verified_says in H2 as (pk' & b' & h' & Qh' & Eh' & Qk' & Qb' & Hv').
    rewrite Qk in Qk'. injection Qk' as <-. rewrite Es in Hv. pose proof (Hu _ _ _ _ Hv Hv') as Eb.
    apply Hc in Eb; [|exact (Hg _ Qb)|exact (Hg' _ Qb')]. exists b. split; [exact Qb|]. rewrite Eb. exact Qb'.
  Qed.

  (** ** C52 *)
  Definition inside (issuer child : cert) : Prop :=
    (t_ns (f_not_before (c_fields issuer)) <= t_ns (f_not_before (c_fields child)))%Z /\
    (t_ns (f_not_after (c_fields child)) <= t_ns (f_not_after (c_fields issuer)))%Z.
  Lemma time_before_wall a b : wall a b -> time_before a b = true <-> (t_ns a < t_ns b)%Z.
  Proof. unfold wall, time_before. intros Hw. destruct (t_mono a), (t_mono b); try apply Z.ltb_lt. destruct Hw; discriminate. Qed.
  Lemma constraints_spec issuer child : cert_wall issuer \/ cert_wall child ->
    verify_constraints issuer child = true <->
    inside issuer child /\
    (f_domain (c_fields issuer) <> [] \/ f_domain (c_fields child) = [] \/ exists u, f_domain (c_fields child) = u ++ [x2e]).
  Proof.
    intros Hw. unfold verify_constraints, inside.
    assert (W1 : wall (f_not_before (c_fields child)) (f_not_before (c_fields issuer))).
    { unfold wall. destruct Hw as [[(?&?&?) _]|[(?&?&?) _]]; auto. }
    assert (W2 : wall (f_not_after (c_fields issuer)) (f_not_after (c_fields child))).
    { unfold wall. destruct Hw as [[(?&?&?) _]|[(?&?&?) _]]; auto. }
    pose proof (time_before_wall _ _ W1) as B1. pose proof (time_before_wall _ _ W2) as B2.
    destruct (time_before (f_not_before (c_fields child)) _).
    - split; [discriminate|]. destruct B1 as [B1 _]. specialize (B1 eq_refl). lia.
    - destruct (time_before (f_not_after (c_fields issuer)) _).
      + split; [discriminate|]. destruct B2 as [B2 _]. specialize (B2 eq_refl). lia.
      + assert (Hin : (t_ns (f_not_before (c_fields issuer)) <= t_ns (f_not_before (c_fields child)))%Z /\
          (t_ns (f_not_after (c_fields child)) <= t_ns (f_not_after (c_fields issuer)))%Z).
        { split; apply Z.nlt_ge; intros Hl; [apply B1 in Hl|apply B2 in Hl]; discriminate. }
        destruct (f_domain (c_fields issuer)) as [|x d].
        * destruct (beqb_spec [] (f_domain (c_fields child))) as [E|Hn]; [rewrite <- E; split; auto|].
          destruct (cut_suffix (f_domain (c_fields child)) [x2e]) as [u|] eqn:Q.
          -- apply cut_suffix_some in Q. split; [|reflexivity]. intros _. split; [exact Hin|]. right. right. eexists. exact Q.
          -- split; [discriminate|]. intros [_ [Hf|[Hf|[u Hf]]]]; [congruence|congruence|].
             apply cut_suffix_some in Hf. congruence.
        * split; [|reflexivity]. intros _. split; [exact Hin|]. left. discriminate.
  Qed.

  (** ** C53 *)
  Notation can_skip := (can_skip H enc priv pub rsa_verify parse_key).
  Notation sign_and_log := (sign_and_log H enc priv pub rsa_sign rsa_verify parse_key).
  Inductive reachable (root : cert) (k : priv) : pca priv -> Prop :=
  | reach_new : reachable root k (mk_pca _ root k [])
  | reach_sign p req spts sent : reachable root k p -> reachable root k (fst (sign_and_log p req spts sent)).
  Lemma db_get_in m key c : db_get key m = Some c -> In (key, c) m.
  Proof.
    induction m as [|[k' c'] m IH]; cbn; [discriminate|]. destruct (beqb_spec key k') as [<-|]; [intros [= ->]; auto|auto].
  Qed.
  Lemma sign_and_log_db p req spts sent : let p' := fst (sign_and_log p req spts sent) in
    p_db _ p' = p_db _ p \/ exists c, snd (sign_and_log p req spts sent) = Some c /\ p_db _ p' = (H (content (f_key (c_fields c))), c) :: p_db _ p.
  Proof.
    cbn. unfold PolicyModel.sign_and_log. destruct (can_skip p req); auto.
    destruct (PolicyModel.sign_request_as_issuer _ _ _ _ _ _ _) as [c1 [|]]; auto. destruct spts as [l|]; auto.
    destruct (PolicyModel.sign_cert_as_issuer _ _ _ _ _ _ _) as [c2 [|]]; auto. destruct sent; cbn; auto. right. exists c2. auto.
  Qed.
  Lemma db_keys root k p : reachable root k p -> Forall (fun e => fst e = H (content (f_key (c_fields (snd e))))) (p_db _ p).
  Proof.
    induction 1 as [|p req spts sent Hr IH]; [constructor|].
    destruct (sign_and_log_db p req spts sent) as [E|(c & _ & E)]; cbn in E; rewrite E; [exact IH|]. constructor; [reflexivity|exact IH].
  Qed.
  Lemma skip_sound p req : can_skip p req = Ok true ->
    exists stored, In (content (f_owner_hash req), stored) (p_db _ p) /\ verify_owner stored req = true.
  Proof.
    unfold PolicyModel.can_skip. destruct (content (f_owner_sig req)); [discriminate|]. destruct (negb _); [discriminate|].
    destruct (db_get _ _) as [s|] eqn:Q; [|discriminate]. destruct (verify_owner s req) eqn:V; [|discriminate].
    intros _. exists s. split; [apply db_get_in; exact Q|exact V].
  Qed.
  Lemma never_skips (G : bytes -> Prop) root k p req :
    (forall x y, G x -> G y -> H x = H y -> x = y) -> 
    (forall e, In e (p_db _ p) -> (forall b, to_json (as_signer (snd e)) = Some b -> G b) /\ G (content (f_key (c_fields (snd e))))) ->
    (forall c b, to_json c = Some b -> parse_key b = None) -> reachable root k p -> can_skip p req <> Ok true.
  Proof.
    intros Hc Hk Hp Hr Hs. apply skip_sound in Hs as (stored & Hin & Hv).
    pose proof (db_keys _ _ _ Hr) as Hd. rewrite Forall_forall in Hd. specialize (Hd _ Hin). cbn in Hd.
    apply verified_says in Hv as (pk & b & h & Qh & Eh & Qk & _ & _).
    unfold PolicyModel.hash_as_signer in Qh. destruct (to_json (as_signer stored)) as [x|] eqn:Qx; [|discriminate]. injection Qh as <-.
    change (f_owner_hash (c_fields (cert_of_request req))) with (f_owner_hash req) in Eh.
    rewrite Eh in Hd. apply Hc in Hd; [|exact (proj1 (Hk _ Hin) _ Qx)|apply (Hk _ Hin)]. rewrite <- Hd in Qk. rewrite (Hp _ _ Qx) in Qk. discriminate.
  Qed.
End Crypto.
