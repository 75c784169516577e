(** Property theorems C15 and C65: domain names, their parents in the answer of the responder, and the names under which
    certificates are stored, for the model in DomainModel.v. *)
From Verif Require Import Base BaseLemmas TrieModel TrieSpec TrieMaps TrieHash TrieStore TrieUpdate TrieRead TrieHistory TrieTop TrieExample ClientModel.
From Verif Require Import DomainModel DomainSpec DomainProofs DomainTop DomainRules.

(** * C15 *)
(** Which names are accepted, for any public suffix list: host names of at most 255 bytes, possibly with "*." in front, that are not
    themselves a public suffix of the ICANN section. *)
Theorem C15_valid_names : forall psl d, is_valid psl d = true <-> host_name d /\ psl d <> (d, true).
Proof. exact is_valid_iff. Qed.
Print Assumptions C15_valid_names.

(** The names of the answer. [ls] are the labels of the name without "*." and "www.", its public suffix is in the ICANN section and
    has [k] of these labels: the answer is about the last [k]+1 labels, the last [k]+2 labels, and so on up to the name itself. If the
    name is itself a public suffix it is refused. *)
Theorem C15_parents_partial : forall psl pre ls k, ls <> [] -> Forall host_label ls -> asks pre ls ->
  length (join (pre ++ ls)) <= 255 -> psl (join (pre ++ ls)) <> (join (pre ++ ls), true) ->
  psl (join ls) = (join (lastn k ls), true) -> 1 <= k <= length ls ->
  parse_domain_name psl (join (pre ++ ls)) = (if k <? length ls then Some (parents k ls) else None) /\
  NoDup (parents k ls) /\
  (forall p, In p (parents k ls) <-> exists j, k < j <= length ls /\ p = join (lastn j ls)).
Proof.
  intros psl pre ls k Hne Hf Ha Hl Hn E Hk. split; [exact (parse_asks psl pre ls k (conj Hne Hf) Ha Hl Hn E Hk)|].
  split; [exact (parents_nodup k ls (conj Hne Hf)) | exact (parents_in k ls)].
Qed.
Print Assumptions C15_parents_partial.

(** Every valid name is of this form. *)
Theorem C15_names : forall d, host_name d -> exists pre ls, ls <> [] /\ Forall host_label ls /\ asks pre ls /\ d = join (pre ++ ls).
Proof. intros d Hd. destruct (host_asks d Hd) as (pre & ls & [H1 H2] & H3 & H4). eauto 8. Qed.
Print Assumptions C15_names.

(** The list of rules of publicsuffix.org, whatever the rules are: a public suffix is made of at least one whole label. *)
Theorem C15_rules : forall rules, whole_labels (rules_psl rules).
Proof. exact rules_whole. Qed.
Print Assumptions C15_rules.
(** Which labels they are ([public_suffix]): an exception prevails, without its first label; otherwise the longest rule that matches; otherwise the last label. *)
Theorem C15_suffix : forall rules d, (forall r, In r rules -> excepts r -> 1 <= rule_labels r) ->
  exists k icann, rules_psl rules d = (join (lastn k (labels d)), icann) /\ public_suffix rules (labels d) k icann.
Proof. exact rules_suffix. Qed.
Print Assumptions C15_suffix.

(** Other names are refused, and nothing is read. *)
Theorem C15_refused : forall psl H payload limit root d s, ~ (host_name d /\ psl d <> (d, true)) ->
  get_proof psl H payload limit root d s = (Err, s).
Proof.
  intros psl H payload limit root d s Hn. unfold get_proof, parse_domain_name. destruct (is_valid psl d) eqn:E; [|reflexivity].
  exfalso. apply Hn. apply is_valid_iff. exact E.
Qed.
Print Assumptions C15_refused.

(** The whole answer, when the tree holds exactly [m]: one response for each of the names, in this order, each about the name itself
    and the hash of the name, with a proof the client accepts. *)
Theorem C15_responses : forall psl H, (forall x, length (H x) = HashLength) -> forall (limit : nat) G, collision_free H G ->
  forall payload m s d parts, represents H G m s -> (forall n v, lookup m (H n) = Some v -> payload (H n) = v) ->
  parse_domain_name psl d = Some parts ->
  exists rs s', get_proof psl H payload limit (root_of H m) d s = (Ok rs, s') /\ Forall2 (answers H m) parts rs.
Proof.
  intros psl H Hlen limit G Hcf payload m s d parts Hr Hp E. unfold get_proof. rewrite E.
  destruct (proofs_answer H Hlen limit G Hcf payload m parts s Hr Hp) as (rs & s' & Hg & Hf & _). eauto.
Qed.
Print Assumptions C15_responses.

(** ** Concrete names *)
Definition com : bytes := [x63; x6f; x6d].
Definition localhost : bytes := [x6c; x6f; x63; x61; x6c; x68; x6f; x73; x74].
Definition la : bytes := [x61].
Definition lb : bytes := [x62].
Definition lc : bytes := [x63; x2d; x31].
(** "com" is an ICANN suffix, "b.com" is a suffix in the private section, "*.c-1" with the exception "!a.c-1" in the ICANN section. *)
Definition ex_rules : list rule :=
  [([com], Plain, true); ([lb; com], Plain, false); ([lc], Wildcard, true); ([la; lc], Exception, true)].
(** "*.www.b.a.com": the answer is about a.com and b.a.com. *)
Example C15_parents_example : Forall host_label [lb; la; com] /\ asks [[star]; www_label] [lb; la; com] /\
  rules_psl ex_rules (join [lb; la; com]) = (join (lastn 1 [lb; la; com]), true) /\
  parse_domain_name (rules_psl ex_rules) (join ([[star]; www_label] ++ [lb; la; com])) = Some [join [la; com]; join [lb; la; com]] /\
  parents 1 [lb; la; com] = [join [la; com]; join [lb; la; com]].
Proof.
  split.
  { apply host_labels_b. vm_compute. reflexivity. }
  split; [left; right; reflexivity|]. split; [vm_compute; reflexivity|]. split; vm_compute; reflexivity.
Qed.
Example C15_suffix_example : (forall r, In r ex_rules -> excepts r -> 1 <= rule_labels r) /\ public_suffix ex_rules [lb; la; lc] 1 true.
Proof.
  split; [intros r [<-|[<-|[<-|[<-|[]]]]]; cbn; unfold excepts; cbn; try discriminate; lia|]. left. exists ([la; lc], Exception, true).
  split; [cbn; auto|]. split; [exists [lb]; reflexivity|]. split; [reflexivity|]. split; [reflexivity|]. split; [reflexivity|].
  intros q [<-|[<-|[<-|[<-|[]]]]] _ X; unfold excepts in X; cbn in X; try discriminate X. apply le_n.
Qed.
Example C15_rules_example :
  rules_psl ex_rules (join [la; lb; lc]) = (join [lb; lc], true) /\ rules_psl ex_rules (join [lb; la; lc]) = (join [lc], true) /\
  rules_psl ex_rules (join [la; lb; com]) = (join [lb; com], false) /\ rules_psl ex_rules localhost = (localhost, false) /\
  is_valid (rules_psl ex_rules) com = false /\ is_valid (rules_psl ex_rules) (join [la; [hyphen]; com]) = false /\
  is_valid (rules_psl ex_rules) (join [[star]; com]) = true /\ is_valid (rules_psl ex_rules) (join [la; [star]; com]) = false.
Proof. vm_compute. repeat split. Qed.

(** C15 fails for suffixes outside the ICANN section: "b.com" is a public suffix, but for c-1.a.b.com the parent a.b.com is left
    out of the answer. *)
Theorem C15_private_refuted : exists rules ls k, Forall host_label ls /\ fst (rules_psl rules (join ls)) = join (lastn k ls) /\
  1 <= k < length ls /\ parse_domain_name (rules_psl rules) (join ls) = Some [join ls] /\ parents k ls = [join (lastn (S k) ls); join ls].
Proof.
  exists ex_rules, [lc; la; lb; com], 2. split.
  { apply host_labels_b. vm_compute. reflexivity. }
  split; [vm_compute; reflexivity|]. split; [cbn; lia|]. split; vm_compute; reflexivity.
Qed.
Print Assumptions C15_private_refuted.
(** Precisely: for every such name the answer is about the name alone. *)
Theorem C15_private_alone : forall psl pre ls, ls <> [] -> Forall host_label ls -> asks pre ls ->
  length (join (pre ++ ls)) <= 255 -> psl (join (pre ++ ls)) <> (join (pre ++ ls), true) -> snd (psl (join ls)) = false ->
  parse_domain_name psl (join (pre ++ ls)) = Some [join ls].
Proof. intros psl pre ls Hne Hf. exact (parse_private psl pre ls (conj Hne Hf)). Qed.
Print Assumptions C15_private_alone.
(** C15 fails for names that are no domain under a public suffix: "localhost" matches no rule and is not refused, nor is the public
    suffix "b.com" of the private section. *)
Theorem C15_unlisted_refuted : exists rules d, Forall (fun r => rule_match (labels d) r = None) rules /\ rules <> [] /\
  parse_domain_name (rules_psl rules) d = Some [d] /\
  In ([lb; com], Plain, false) rules /\ parse_domain_name (rules_psl rules) (join [lb; com]) = Some [join [lb; com]].
Proof.
  exists ex_rules, localhost. split; [repeat constructor|]. split; [discriminate|]. split; [vm_compute; reflexivity|]. split; [right; left; reflexivity | vm_compute; reflexivity].
Qed.
Print Assumptions C15_unlisted_refuted.
(** A name that is registered directly under a public suffix is refused if its label is "www". *)
Theorem C15_www_refuted : exists rules, rules_psl rules (join [www_label; com]) = (com, true) /\
  is_valid (rules_psl rules) (join [www_label; com]) = true /\ parse_domain_name (rules_psl rules) (join [www_label; com]) = None.
Proof. exists ex_rules. vm_compute. repeat split. Qed.
Print Assumptions C15_www_refuted.

(** * C65 *)
(** A name without "*." and "www." in front, if it is not refused, is in the answer to the question for that name: what is stored under
    its hash is found. *)
Theorem C65_found_partial : forall psl H, (forall x, length (H x) = HashLength) -> forall (limit : nat) G, collision_free H G ->
  whole_labels psl -> forall payload m s d parts v, represents H G m s -> (forall n v, lookup m (H n) = Some v -> payload (H n) = v) ->
  parse_domain_name psl d = Some parts -> (forall r, d <> star :: dot :: r) -> (forall r, d <> www ++ r) ->
  lookup m (H d) = Some v ->
  exists rs s' r, get_proof psl H payload limit (root_of H m) d s = (Ok rs, s') /\ In r rs /\
    entry r = Some (mk_entry d (H d) v) /\ verify_proof_by_domain H r = Ok (PoP, true).
Proof.
  intros psl H Hlen limit G Hcf Hw payload m s d parts v Hr Hp E Hs Hww Hv.
  destruct (C15_responses psl H Hlen limit G Hcf payload m s d parts Hr Hp E) as (rs & s' & Hg & Hf).
  destruct (parse_whole psl d parts Hw E) as (pre & ls & [Hne Hc] & Ha & Ed & Hin & _).
  assert (pre = []) as ->.
  { destruct Ha as [[->| ->]|[[->| ->] _]]; [exfalso..|reflexivity|exfalso]; cbn [app] in Ed.
    - rewrite (join_cons www_label ls Hne) in Ed. exact (Hww (join ls) Ed).
    - rewrite (join_cons [star] (www_label :: ls) ltac:(discriminate)) in Ed. exact (Hs _ Ed).
    - rewrite (join_cons [star] ls Hne) in Ed. exact (Hs _ Ed). }
  cbn [app] in Ed. rewrite <- Ed in Hin.
  assert (exists r, In r rs /\ answers H m d r) as (r & Hir & Har).
  { clear -Hf Hin. induction Hf as [|n r ns rs Hn _ IH]; [destruct Hin|]. destruct Hin as [<-|Hin]; [exists r; split; [left; reflexivity | exact Hn]|].
    destruct (IH Hin) as (x & Hx & Hy). exists x. split; [right; exact Hx | exact Hy]. }
  exists rs, s', r. unfold answers in Har. rewrite Hv in Har. tauto.
Qed.
Print Assumptions C65_found_partial.

(** The names of a certificate are stored as they are: each once. *)
Theorem C65_stored : forall cn dns, NoDup (cert_domains cn dns) /\ forall n, In n (cert_domains cn dns) <-> In n dns \/ (cn <> [] /\ n = cn).
Proof. exact cert_domains_spec. Qed.
Print Assumptions C65_stored.

(** C65 fails for wildcard names: no question at all has them in its answer. *)
Theorem C65_wildcard_refuted : exists rules cn dns name, In name (cert_domains cn dns) /\ is_valid (rules_psl rules) name = true /\
  forall d parts, parse_domain_name (rules_psl rules) d = Some parts -> ~ In name parts.
Proof.
  exists ex_rules, [], [join [[star]; la; com]], (join [[star]; la; com]). split; [left; reflexivity|]. split; [vm_compute; reflexivity|].
  intros d parts E Hin. apply (parse_no_star _ d parts _ (rules_whole ex_rules) E Hin). left. reflexivity.
Qed.
Print Assumptions C65_wildcard_refuted.
(** And for names starting with "www.": the answer to the question for the name does not have it. *)
Theorem C65_www_refuted : exists rules cn dns name parts, In name (cert_domains cn dns) /\
  parse_domain_name (rules_psl rules) name = Some parts /\ ~ In name parts.
Proof.
  exists ex_rules, [], [join [www_label; la; com]], (join [www_label; la; com]), [join [la; com]]. split; [left; reflexivity|]. split; [vm_compute; reflexivity|].
  intros [E|[]]. discriminate E.
Qed.
Print Assumptions C65_www_refuted.
(** This holds for all names with "*." or "www." in front. *)
Theorem C65_prefixed_never_found : forall psl, whole_labels psl -> forall pre ls parts, ls <> [] -> Forall host_label ls -> asks pre ls -> pre <> [] ->
  parse_domain_name psl (join (pre ++ ls)) = Some parts -> ~ In (join (pre ++ ls)) parts.
Proof. intros psl Hw pre ls parts Hne Hf. exact (parse_stripped psl pre ls parts Hw (conj Hne Hf)). Qed.
Print Assumptions C65_prefixed_never_found.

(** ** A case that meets the hypotheses *)
(** exH, except that "b.a.com" hashes to a stored key and "a.com" to another one. *)
Definition domH (x : bytes) : bytes := if beqb x (join [lb; la; com]) then kB else if beqb x (join [la; com]) then kC else exH x.
Lemma domH_table x : exG x -> domH x = exH x.
Proof.
  intros Hx. assert (Hl : 64 <= length x).
  { assert (Hall : forallb (fun s => 64 <=? length s) ex_table = true) by (vm_compute; reflexivity).
    rewrite forallb_forall in Hall. apply Nat.leb_le, Hall, Hx. }
  assert (Hne : forall y, length y < 64 -> beqb x y = false) by (intros y Hy; apply beqb_neq; intros ->; lia).
  unfold domH. rewrite !Hne by (cbn; lia). reflexivity.
Qed.
Lemma domH_length x : length (domH x) = HashLength.
Proof. unfold domH. repeat (destruct (beqb x _); [reflexivity|]). apply table_hash_length. Qed.
Lemma domH_cf : collision_free domH exG.
Proof. destruct exH_cf as [Ha Hb]. split; intros x y Hx Hy; rewrite (domH_table x Hx), (domH_table y Hy); auto. Qed.
Lemma domH_nz x : exG x -> domH x <> zero_hash.
Proof. intros Hx. rewrite domH_table by exact Hx. apply table_hash_nz. Qed.
Lemma domH_history : history domH exG 0 [] [OpUpdate true ex_m2] ex_m2.
Proof.
  apply (h_update domH exG 0 [] true ex_m2 ex_m2).
  - split; [split; exact I|]. constructor; [|constructor]. split; [reflexivity | left; reflexivity].
  - intros k v [Hq|[]]. injection Hq as <- <-. split; discriminate.
  - intros (n & d & k1 & k2 & _ & [] & _).
  - exact ex_sep2.
  - exact ex_map2.
  - apply (over_overridden [] ex_m2). apply (proj1 ex_map2).
  - split; [apply ex_in_b; vm_compute; reflexivity|]. intros k v h Hi. apply ex_leaf_in. destruct Hi as [<-|[]]; simpl; auto.
  - apply h_nil.
Qed.
(** The answer for b.a.com: a.com absent, b.a.com present with its value. *)
Example C65_example : exists s rs s', represents domH exG ex_m2 s /\
  get_proof (rules_psl ex_rules) domH (fun _ => v1) 200 (root_of domH ex_m2) (join [lb; la; com]) s = (Ok rs, s') /\
  Forall2 (answers domH ex_m2) [join [la; com]; join [lb; la; com]] rs /\
  lookup ex_m2 (domH (join [la; com])) = None /\ lookup ex_m2 (domH (join [lb; la; com])) = Some v1.
Proof.
  destruct (history_represented domH domH_length 200 exG domH_cf domH_nz _ ex_m2 domH_history) as (s & _ & Hr).
  destruct (C15_responses (rules_psl ex_rules) domH domH_length 200 exG domH_cf (fun _ => v1) ex_m2 s (join [lb; la; com]) [join [la; com]; join [lb; la; com]] Hr) as (rs & s' & Hg & Hf).
  - intros n v Hv. apply lookup_In in Hv as [Hv|[]]. congruence.
  - vm_compute. reflexivity.
  - exists s, rs, s'. split; [exact Hr|]. split; [exact Hg|]. split; [exact Hf|]. split; vm_compute; reflexivity.
Qed.
