(** The public suffix by the rules of publicsuffix.org. *)
From Verif Require Import Base BaseLemmas TrieModel TrieSpec ClientModel DomainModel DomainSpec DomainTop.
(** The rules of publicsuffix.org, in words: a rule matches the names that end in its labels, one with "*." the names with one more label in front. *)
Definition matches (ls : list bytes) (r : rule) : Prop :=
  let '(name, kind, _) := r in match kind with Wildcard => exists pre l, ls = pre ++ l :: name | _ => exists pre, ls = pre ++ name end.
Definition rule_labels (r : rule) : nat := let '(name, kind, _) := r in match kind with Wildcard => S (length name) | _ => length name end.
Definition excepts (r : rule) : Prop := snd (fst r) = Exception.
Definition public_suffix (rules : list rule) (ls : list bytes) (k : nat) (icann : bool) : Prop :=
  (exists r, In r rules /\ matches ls r /\ excepts r /\ icann = snd r /\ k = Nat.max 1 (rule_labels r - 1) /\
     forall q, In q rules -> matches ls q -> excepts q -> rule_labels q <= rule_labels r) \/
  ((forall r, In r rules -> matches ls r -> ~ excepts r) /\
   ((exists r, In r rules /\ matches ls r /\ icann = snd r /\ k = rule_labels r /\ 1 <= k /\ forall q, In q rules -> matches ls q -> rule_labels q <= rule_labels r) \/
    (k = 1 /\ icann = false /\ forall r, In r rules -> matches ls r -> rule_labels r = 0))).
Lemma is_prefix_spec a : forall b, is_prefix a b = true <-> exists c, b = a ++ c.
Proof.
  induction a as [|x a IH]; intros b; cbn; [split; [exists b; reflexivity|reflexivity]|]. destruct b as [|y b]; [split; [discriminate|intros (c & E); discriminate]|].
  rewrite Bool.andb_true_iff, IH. split; [intros [E (c & ->)]; apply beqb_eq in E; subst; exists c; reflexivity | intros (c & E); injection E as -> ->; split; [apply beqb_refl|eauto]].
Qed.
Lemma ends_spec name ls : is_prefix (rev name) (rev ls) = true <-> exists pre, ls = pre ++ name.
Proof.
  rewrite is_prefix_spec. split; intros (c & E).
  - exists (rev c). rewrite <- (rev_involutive ls), E, rev_app_distr, rev_involutive. reflexivity.
  - exists (rev c). rewrite E, rev_app_distr. reflexivity.
Qed.
Lemma match_spec ls r : match rule_match ls r with
  | Some (k, ex, ic) => matches ls r /\ ic = snd r /\ (ex = true <-> excepts r) /\ k = (if ex then pred (rule_labels r) else rule_labels r)
  | None => ~ matches ls r
  end.
Proof.
  destruct r as [[name kind] icann]. unfold rule_match, matches, excepts, rule_labels. cbn [fst snd]. pose proof (ends_spec name ls) as E.
  destruct (is_prefix (rev name) (rev ls)).
  - destruct (proj1 E eq_refl) as (pre & ->). destruct kind.
    + split; [eauto|]. repeat split; try discriminate.
    + destruct (Nat.ltb_spec (length name) (length (pre ++ name))) as [L|L].
      * split; [|repeat split; discriminate]. rewrite app_length in L. destruct (exists_last (l := pre)) as (p & l & ->); [intros ->; cbn in L; lia|]. exists p, l. rewrite <- app_assoc. reflexivity.
      * intros (p & l & X). apply (f_equal (@length bytes)) in X. rewrite X, app_length in L. cbn in L. lia.
    + split; [eauto|]. repeat split.
  - assert (N : ~ exists pre, ls = pre ++ name) by (intros X; apply E in X; discriminate).
    destruct kind; try exact N. intros (p & l & ->). apply N. exists (p ++ [l]). rewrite <- app_assoc. reflexivity.
Qed.
(** What the loop has seen so far *)
Definition best_of (seen : list rule) (ls : list bytes) (b : nat * bool * bool) : Prop :=
  let '(k, ex, ic) := b in
  if ex then exists r, In r seen /\ matches ls r /\ excepts r /\ ic = snd r /\ k = pred (rule_labels r) /\ forall q, In q seen -> matches ls q -> excepts q -> rule_labels q <= Nat.max 1 (rule_labels r)
  else (forall r, In r seen -> matches ls r -> ~ excepts r) /\
   ((exists r, In r seen /\ matches ls r /\ ic = snd r /\ k = rule_labels r /\ 1 <= k /\ forall q, In q seen -> matches ls q -> rule_labels q <= rule_labels r) \/
    (k = 1 /\ ic = false /\ forall r, In r seen -> matches ls r -> rule_labels r = 0)).
Lemma prevailing_best ls rules : forall seen b, best_of seen ls b -> best_of (seen ++ rules) ls (prevailing ls rules b).
Proof.
  induction rules as [|r rules IH]; intros seen b Hb; cbn [prevailing]; [rewrite app_nil_r; exact Hb|].
  replace (seen ++ r :: rules) with ((seen ++ [r]) ++ rules) by (rewrite <- app_assoc; reflexivity). apply IH. clear IH.
  pose proof (match_spec ls r) as M. destruct b as [[k0 ex0] ic0]. destruct (rule_match ls r) as [[[k ex] ic]|].
  - destruct M as (M1 & -> & M2 & ->). destruct ex, ex0; cbn [andb negb orb Bool.eqb].
    + destruct (Nat.leb_spec k0 (pred (rule_labels r))) as [L|L]; destruct Hb as (r0 & A1 & A2 & A3 & A4 & A5 & A6); unfold best_of.
      * exists r. split; [apply in_app_iff; right; left; reflexivity|]. split; [exact M1|]. split; [apply M2; reflexivity|]. split; [reflexivity|]. split; [reflexivity|].
        intros q Q1 Q2 Q3. apply in_app_iff in Q1 as [Q1|[->|[]]]; [specialize (A6 q Q1 Q2 Q3); lia | lia].
      * exists r0. split; [apply in_app_iff; left; exact A1|]. split; [exact A2|]. split; [exact A3|]. split; [exact A4|]. split; [exact A5|].
        intros q Q1 Q2 Q3. apply in_app_iff in Q1 as [Q1|[->|[]]]; [exact (A6 q Q1 Q2 Q3) | lia].
    + destruct Hb as [A1 _]. exists r. split; [apply in_app_iff; right; left; reflexivity|]. split; [exact M1|]. split; [apply M2; reflexivity|]. split; [reflexivity|]. split; [reflexivity|].
      intros q Q1 Q2 Q3. apply in_app_iff in Q1 as [Q1|[->|[]]]; [destruct (A1 q Q1 Q2 Q3) | lia].
    + destruct Hb as (r0 & A1 & A2 & A3 & A4 & A5 & A6). exists r0. split; [apply in_app_iff; left; exact A1|]. split; [exact A2|]. split; [exact A3|]. split; [exact A4|]. split; [exact A5|].
      intros q Q1 Q2 Q3. apply in_app_iff in Q1 as [Q1|[->|[]]]; [exact (A6 q Q1 Q2 Q3) | apply M2 in Q3; discriminate].
    + destruct Hb as [A1 A2]. assert (N : forall q, In q (seen ++ [r]) -> matches ls q -> ~ excepts q).
      { intros q Q1 Q2 Q3. apply in_app_iff in Q1 as [Q1|[->|[]]]; [exact (A1 q Q1 Q2 Q3) | apply M2 in Q3; discriminate]. }
      destruct (Nat.leb_spec k0 (rule_labels r)) as [L|L]; (split; [exact N|]).
      * left. exists r. split; [apply in_app_iff; right; left; reflexivity|]. split; [exact M1|]. split; [reflexivity|]. split; [reflexivity|].
        destruct A2 as [(r0 & B1 & B2 & B3 & B4 & B5 & B6)|(B1 & B2 & B3)].
        { split; [lia|]. intros q Q1 Q2. apply in_app_iff in Q1 as [Q1|[->|[]]]; [specialize (B6 q Q1 Q2); lia | lia]. }
        split; [lia|]. intros q Q1 Q2. apply in_app_iff in Q1 as [Q1|[->|[]]]; [specialize (B3 q Q1 Q2); lia | lia].
      * destruct A2 as [(r0 & B1 & B2 & B3 & B4 & B5 & B6)|(B1 & B2 & B3)].
        { left. exists r0. split; [apply in_app_iff; left; exact B1|]. repeat (split; [assumption|]). intros q Q1 Q2. apply in_app_iff in Q1 as [Q1|[->|[]]]; [exact (B6 q Q1 Q2) | lia]. }
        right. split; [exact B1|]. split; [exact B2|]. intros q Q1 Q2. apply in_app_iff in Q1 as [Q1|[->|[]]]; [exact (B3 q Q1 Q2) | lia].
  - assert (Q : forall q, In q (seen ++ [r]) -> matches ls q -> In q seen) by (intros q Q1 Q2; apply in_app_iff in Q1 as [Q1|[->|[]]]; [exact Q1|contradiction]).
    unfold best_of in *. destruct ex0.
    + destruct Hb as (r0 & A1 & A2 & A3 & A4 & A5 & A6). exists r0. split; [apply in_app_iff; left; exact A1|]. repeat (split; [assumption|]). intros q Q1 Q2. apply A6; auto.
    + destruct Hb as [A1 A2]. split; [intros q Q1 Q2; apply A1; auto|]. destruct A2 as [(r0 & B1 & B2 & B3 & B4 & B5 & B6)|(B1 & B2 & B3)].
      * left. exists r0. split; [apply in_app_iff; left; exact B1|]. repeat (split; [assumption|]). intros q Q1 Q2. apply B6; auto.
      * right. repeat (split; [assumption|]). intros q Q1 Q2. apply B3; auto.
Qed.
Theorem rules_suffix rules d : (forall r, In r rules -> excepts r -> 1 <= rule_labels r) ->
  exists k icann, rules_psl rules d = (join (lastn k (labels d)), icann) /\ public_suffix rules (labels d) k icann.
Proof.
  intros Hr. pose proof (prevailing_best (labels d) rules [] (1, false, false)) as B. unfold rules_psl.
  destruct (prevailing (labels d) rules (1, false, false)) as [[k ex] ic]. cbn [app] in B. exists (Nat.max 1 k), ic. split; [reflexivity|].
  assert (B0 : best_of [] (labels d) (1, false, false)) by (split; [intros r []|]; right; split; [reflexivity|]; split; [reflexivity|]; intros r []).
  specialize (B B0). unfold best_of in B. destruct ex.
  - destruct B as (r & A1 & A2 & A3 & A4 & A5 & A6). left. exists r. split; [exact A1|]. split; [exact A2|]. split; [exact A3|]. split; [exact A4|]. specialize (Hr r A1 A3).
    split; [lia|]. intros q Q1 Q2 Q3. specialize (A6 q Q1 Q2 Q3). lia.
  - destruct B as [A1 A2]. right. split; [exact A1|]. destruct A2 as [(r0 & B1 & B2 & B3 & B4 & B5 & B6)|(B1 & B2 & B3)].
    + left. exists r0. split; [exact B1|]. split; [exact B2|]. split; [exact B3|]. split; [lia|]. split; [lia|]. exact B6.
    + right. split; [lia|]. split; [exact B2|]. exact B3.
Qed.
