(** Proofs about JsonModel: FromJSON on every text. *)
From Coq Require Import Strings.String.
From Verif Require Import Base BaseLemmas UtilModel UtilDuration DbModel LoadModel LoadProofs PolicyModel JsonText JsonTextProofs JsonParse JsonModel JsonProofs JsonRead.
Local Open Scope list_scope.
Local Notation b_ s := (list_byte_of_string s%string).

Lemma skip_hd c r : json_space c = false -> skip_space (c :: r) = c :: r.
Proof. intros C. cbn [skip_space]. now rewrite C. Qed.
Lemma value_space p g s : forallb json_space p = true -> parse_value g (p ++ s) = parse_value g s.
Proof. intros P. destruct g as [|g]; [reflexivity|]. cbn [parse_value]. now rewrite skip_app. Qed.
Lemma skip_nil r : skip_space r = [] -> forallb json_space r = true.
Proof. intros E. destruct (skip_split r) as (p & P & F). rewrite E, app_nil_r in P. now subst. Qed.
Lemma skip_all r : forallb json_space r = true -> skip_space r = [].
Proof. intros F. rewrite <- (app_nil_r r). rewrite skip_app by exact F. reflexivity. Qed.
Lemma space_end r : forallb json_space r = true -> num_end r.
Proof. intros F. rewrite <- (app_nil_r r). apply num_end_space; [exact F|exact I]. Qed.
(** Fuel is never the reason of a failure. *)
Lemma parse_any f s v r : parse_value f s = Some (v, r) -> skip_space r = [] -> parse s = Some v.
Proof.
  intros E R. destruct (proj1 (parse_prefix f) _ _ _ E) as (t & -> & _ & _ & G). unfold parse.
  rewrite (G r) by (try (apply space_end, skip_nil; exact R); rewrite app_length; lia). now rewrite R.
Qed.
Lemma parse_inv s v : parse s = Some v -> exists t r, s = t ++ r /\ forallb json_space r = true /\ starts t /\ ends t /\
  forall r' g, num_end r' -> 2 * length t <= g -> parse_value g (t ++ r') = Some (v, r').
Proof.
  unfold parse. intros E. destruct (parse_value (S (2 * length s)) s) as [[v' r]|] eqn:P; [|discriminate].
  destruct (skip_space r) eqn:R; [|discriminate]. injection E as ->. destruct (proj1 (parse_prefix _) _ _ _ P) as (t & -> & A & B & G).
  exists t, r. repeat split; auto. now apply skip_nil.
Qed.

(** ** Space around a text *)
Lemma rev_ends t : ends t -> exists c t', rev t = c :: t' /\ json_space c = false.
Proof.
  intros E. destruct t as [|c t] using rev_ind; [discriminate E|]. clear IHt. unfold ends in E. rewrite last_last in E. rewrite rev_app_distr. cbn. eauto.
Qed.
Lemma trim_core p t q : forallb json_space p = true -> forallb json_space q = true -> (exists c t', t = c :: t' /\ json_space c = false) -> ends t ->
  trim (p ++ t ++ q) = t.
Proof.
  intros P Q (c & t' & -> & C) E. unfold trim. rewrite skip_app by exact P. cbn [app]. rewrite skip_hd by exact C.
  change (c :: t' ++ q) with ((c :: t') ++ q). rewrite rev_app_distr, skip_app.
  - destruct (rev_ends _ E) as (d & u & R & D). rewrite R. rewrite skip_hd by exact D. rewrite <- R. apply rev_involutive.
  - rewrite forallb_forall in *. intros x I. apply Q. now apply in_rev.
Qed.
Lemma trim_split text : exists p q, text = p ++ trim text ++ q /\ forallb json_space p = true /\ forallb json_space q = true.
Proof.
  unfold trim. destruct (skip_split text) as (p & P & F). destruct (skip_split (rev (skip_space text))) as (q & Q & G).
  exists p, (rev q). split; [|split; [exact F|]].
  - rewrite <- rev_app_distr, <- Q, rev_involutive. exact P.
  - rewrite forallb_forall in *. intros x I. apply G. now apply in_rev.
Qed.
Lemma starts_split t : starts t -> exists p c t', t = p ++ c :: t' /\ forallb json_space p = true /\ json_space c = false.
Proof.
  intros [c H]. destruct (H []) as [s E]. rewrite app_nil_r in E. apply skip_cons in E as (p & -> & P & C). eauto 6.
Qed.
Lemma ends_tail p c t : ends (p ++ c :: t) -> ends (c :: t).
Proof. unfold ends. induction p as [|x p IH]; [auto|]. cbn [app last]. destruct (p ++ c :: t) eqn:E; [destruct p; discriminate|]. auto. Qed.
Lemma parse_trim text : parse (trim text) = parse text.
Proof.
  destruct (parse text) as [v|] eqn:E.
  - destruct (parse_inv _ _ E) as (t & r & -> & R & S & N & G). destruct (starts_split t S) as (p & c & t' & -> & P & C).
    rewrite <- app_assoc. rewrite (trim_core p (c :: t') r) by eauto using ends_tail.
    apply (parse_any (Datatypes.S (2 * length (p ++ c :: t'))) _ v []); [|reflexivity].
    pose proof (G [] (Datatypes.S (2 * length (p ++ c :: t'))) I ltac:(lia)) as H. rewrite app_nil_r, value_space in H by exact P. exact H.
  - destruct (parse (trim text)) as [v|] eqn:E2; [|reflexivity]. destruct (trim_split text) as (p & q & T & P & Q).
    destruct (parse_inv _ _ E2) as (t & r & H & R & S & N & G). rewrite <- E. rewrite T, H. symmetry.
    apply (parse_any (Datatypes.S (2 * length t)) _ v (r ++ q)); [|apply skip_all; rewrite forallb_app; now rewrite R, Q].
    rewrite value_space by exact P. rewrite <- app_assoc. apply G; [|lia]. apply space_end. rewrite forallb_app. now rewrite R, Q.
Qed.

(** ** The texts of members and elements *)
Definition own_text (x : bytes) (v : json) : Prop := parse x = Some v /\ trim x = x.
Lemma own_value f s v r : parse_value f s = Some (v, r) -> exists p t, s = p ++ t ++ r /\ forallb json_space p = true /\ own_text t v /\ starts t /\
  (exists c t', t = c :: t' /\ json_space c = false) /\ forall r', num_end r' -> parse_value (S (2 * length (t ++ r'))) (t ++ r') = Some (v, r').
Proof.
  intros E. destruct (proj1 (parse_prefix f) _ _ _ E) as (t & -> & S & N & G). destruct (starts_split t S) as (p & c & t' & -> & P & C).
  exists p, (c :: t'). split; [now rewrite <- app_assoc|]. split; [exact P|].
  assert (V : forall r' g, num_end r' -> 2 * length (p ++ c :: t') <= g -> parse_value g ((c :: t') ++ r') = Some (v, r')).
  { intros r' g R L. rewrite <- (value_space p) by exact P. rewrite app_assoc. now apply G. }
  assert (V2 : forall r', num_end r' -> parse_value (Datatypes.S (2 * length ((c :: t') ++ r'))) ((c :: t') ++ r') = Some (v, r')).
  { intros r' R. pose proof (V r' _ R (le_n _)) as V1. destruct (proj1 (parse_prefix _) _ _ _ V1) as (u & U & _ & _ & G'). apply app_inv_tail in U. subst u.
    apply G'; [exact R|]. rewrite app_length. lia. }
  split; [split|].
  - pose proof (V2 [] I) as H. rewrite app_nil_r in H. now apply (parse_any _ _ v [] H).
  - pose proof (trim_core [] (c :: t') [] eq_refl eq_refl ltac:(eauto) (ends_tail _ _ _ N)) as T. cbn [app] in T. rewrite app_nil_r in T. exact T.
  - split; [apply (starts_put []); auto|]. split; [eauto|]. exact V2.
Qed.
Lemma skip_own t r : (exists c t', t = c :: t' /\ json_space c = false) -> skip_space (t ++ r) = t ++ r.
Proof. intros (c & t' & -> & C). now apply skip_hd. Qed.
Definition strip (m : bytes * (bytes * json)) : bytes * json := (fst m, snd (snd m)).
Lemma member_texts_prefix f : forall s l r, parse_members f s = Some (l, r) ->
  exists t m, s = t ++ r /\ map strip m = l /\ Forall (fun x => own_text (fst (snd x)) (snd (snd x)) /\ length (fst (snd x)) < length t) m /\
  (exists q t', skip_space t = dquote :: t' /\ t = q ++ dquote :: t' /\ forallb json_space q = true) /\ ends t /\
  forall r' g, length t <= g -> member_texts g (t ++ r') = Some m.
Proof.
  induction f as [|f IH]; intros s l r E; [discriminate|]. cbn [parse_members] in E. destruct (skip_space s) as [|c s1] eqn:SK; [discriminate|].
  apply skip_cons in SK as (p & -> & P & C). destruct (Byte.eqb c dquote) eqn:B0; [|discriminate].
  destruct (scan_string s1) as [[k s2]|] eqn:S; [|discriminate]. destruct (scan_string_prefix _ _ _ S) as (kt & -> & _ & GK).
  destruct (skip_space s2) as [|c2 s3] eqn:SK; [discriminate|]. apply skip_cons in SK as (q & -> & Q & C2).
  destruct (Byte.eqb c2 x3a) eqn:B1; [|discriminate]. destruct (parse_value f s3) as [[v r1]|] eqn:V; [|discriminate].
  destruct (own_value _ _ _ _ V) as (p2 & t & -> & P2 & O & N & H & G). destruct (skip_space r1) as [|c3 r2] eqn:SK; [discriminate|].
  apply skip_cons in SK as (q2 & -> & Q2 & C3). apply byte_eqb_eq in B0 as B0'. subst c.
  destruct (Byte.eqb c3 x2c) eqn:B2.
  - destruct (parse_members f r2) as [[l' r3]|] eqn:M; [|discriminate]. injection E as <- <-. destruct (IH _ _ _ M) as (u & m & -> & M1 & M2 & _ & En & M3).
    exists (p ++ dquote :: kt ++ q ++ c2 :: p2 ++ t ++ q2 ++ c3 :: u), ((k, (t, v)) :: m).
    split; [now assoc|]. split; [cbn [map]; now rewrite M1|]. split.
    { constructor; [split; [exact O|]|]. { cbn [fst snd]. lens. lia. } apply Forall_forall. intros x I. rewrite Forall_forall in M2. destruct (M2 x I) as [A B].
      split; [exact A|]. lens. lia. }
    split; [exists p; eexists; rewrite skip_put by assumption; repeat split; assumption|]. split; [finish|].
    intros r' g L. assoc. lens. destruct g as [|g]; [lia|]. cbn [member_texts]. rewrite skip_put by assumption. rewrite B0, GK. cbn [obind].
    rewrite skip_put by assumption. rewrite B1. cbv zeta. rewrite skip_app by exact P2. rewrite skip_own by exact H. apply byte_eqb_eq in B2 as B2'.
    rewrite G by (apply comma_end; auto). cbn [obind]. rewrite skip_put by assumption. rewrite B2, M3 by lia. cbn [obind]. now rewrite taken_app.
  - destruct (Byte.eqb c3 x7d) eqn:B3; [|discriminate]. injection E as <- <-.
    exists (p ++ dquote :: kt ++ q ++ c2 :: p2 ++ t ++ q2 ++ [c3]), [(k, (t, v))].
    split; [now assoc|]. split; [reflexivity|]. split.
    { constructor; [split; [exact O|]|constructor]. cbn [fst snd]. lens. lia. }
    split; [exists p; eexists; rewrite skip_put by assumption; repeat split; assumption|]. split; [finish|].
    intros r' g L. assoc. lens. destruct g as [|g]; [lia|]. cbn [member_texts]. rewrite skip_put by assumption. rewrite B0, GK. cbn [obind].
    rewrite skip_put by assumption. rewrite B1. cbv zeta. rewrite skip_app by exact P2. rewrite skip_own by exact H. apply byte_eqb_eq in B3 as B3'.
    rewrite G by (apply comma_end; auto). cbn [obind]. rewrite skip_put by assumption. rewrite B2. now rewrite taken_app.
Qed.
Lemma element_texts_prefix f : forall s l r, parse_elements f s = Some (l, r) ->
  exists t m, s = t ++ r /\ Forall2 own_text m l /\ Forall (fun x => length x < length t) m /\ starts t /\ ends t /\
  forall r' g, length t <= g -> element_texts g (t ++ r') = Some m.
Proof.
  induction f as [|f IH]; intros s l r E; [discriminate|]. cbn [parse_elements] in E. destruct (parse_value f s) as [[v r1]|] eqn:V; [|discriminate].
  destruct (own_value _ _ _ _ V) as (p2 & t & -> & P2 & O & N & H & G). destruct (skip_space r1) as [|c3 r2] eqn:SK; [discriminate|].
  apply skip_cons in SK as (q2 & -> & Q2 & C3). destruct H as (c & t' & -> & C).
  destruct (Byte.eqb c3 x2c) eqn:B2.
  - destruct (parse_elements f r2) as [[l' r3]|] eqn:M; [|discriminate]. injection E as <- <-. destruct (IH _ _ _ M) as (u & m & -> & M1 & M2 & _ & En & M3).
    exists (p2 ++ (c :: t') ++ q2 ++ c3 :: u), ((c :: t') :: m).
    split; [now assoc|]. split; [constructor; auto|]. split.
    { constructor; [lens; lia|]. apply Forall_forall. intros x I. rewrite Forall_forall in M2. specialize (M2 x I). lens. lia. }
    split; [cbn [app]; now apply starts_put|]. split; [finish|].
    intros r' g L. rewrite <- !app_assoc. repeat (rewrite ?app_length in L; cbn [length app] in L). destruct g as [|g]; [lia|]. cbn [element_texts]. cbv zeta. rewrite skip_app by exact P2.
    cbn [app]. rewrite skip_hd by exact C. apply byte_eqb_eq in B2 as B2'.
    change (c :: t' ++ q2 ++ c3 :: u ++ r') with ((c :: t') ++ q2 ++ c3 :: u ++ r').
    rewrite G by (apply comma_end; auto). rewrite skip_put by assumption. rewrite B2, M3 by lia. cbn [obind]. now rewrite taken_app.
  - destruct (Byte.eqb c3 x5d) eqn:B3; [|discriminate]. injection E as <- <-.
    exists (p2 ++ (c :: t') ++ q2 ++ [c3]), [c :: t'].
    split; [now assoc|]. split; [constructor; auto|]. split.
    { constructor; [lens; lia|constructor]. }
    split; [cbn [app]; now apply starts_put|]. split; [finish|].
    intros r' g L. rewrite <- !app_assoc. repeat (rewrite ?app_length in L; cbn [length app] in L). destruct g as [|g]; [lia|]. cbn [element_texts]. cbv zeta. rewrite skip_app by exact P2.
    cbn [app]. rewrite skip_hd by exact C. apply byte_eqb_eq in B3 as B3'.
    change (c :: t' ++ q2 ++ c3 :: r') with ((c :: t') ++ q2 ++ c3 :: r').
    rewrite G by (apply comma_end; auto). rewrite skip_put by assumption. rewrite B2. now rewrite taken_app.
Qed.
Lemma object_text text l : parse text = Some (JObj l) -> exists p s, text = p ++ x7b :: s /\ forallb json_space p = true /\
  ((l = [] /\ exists q r, s = q ++ x7d :: r /\ forallb json_space q = true /\ forallb json_space r = true) \/
   exists f r, parse_members f s = Some (l, r) /\ forallb json_space r = true).
Proof.
  unfold parse. destruct (parse_value (S (2 * length text)) text) as [[v r]|] eqn:E; [|discriminate]. destruct (skip_space r) eqn:R; [|discriminate].
  intros [= ->]. apply skip_nil in R. cbn [parse_value] in E. destruct (skip_space text) as [|c s] eqn:SK; [discriminate|].
  apply skip_cons in SK as (p & -> & P & C). destruct (Byte.eqb c x7b) eqn:B1.
  { apply byte_eqb_eq in B1 as ->. exists p, s. split; [reflexivity|]. split; [exact P|].
    destruct (skip_space s) as [|c2 s2] eqn:S2; [discriminate|]. destruct (Byte.eqb c2 x7d) eqn:B2.
    - injection E as <- <-. left. split; [reflexivity|]. apply byte_eqb_eq in B2 as ->. apply skip_cons in S2 as (q & -> & Q & _). eauto.
    - destruct (parse_members _ s) as [[l' r3]|] eqn:M; [|discriminate]. injection E as -> ->. right. eauto. }
  destruct (Byte.eqb c x5b). { destruct (skip_space s) as [|c2 s2]; [discriminate|]. destruct (Byte.eqb c2 x5d); [discriminate|]. destruct (parse_elements _ s) as [[? ?]|]; discriminate. }
  destruct (Byte.eqb c dquote). { destruct (scan_string s) as [[? ?]|]; discriminate. }
  unfold with_word in E.
  destruct (Byte.eqb c x74). { destruct (strip_word _ _); discriminate. }
  destruct (Byte.eqb c x66). { destruct (strip_word _ _); discriminate. }
  destruct (Byte.eqb c x6e). { destruct (strip_word _ _); discriminate. }
  destruct (scan_number (c :: s)) as [[? ?]|]; discriminate.
Qed.
Lemma array_text text l : parse text = Some (JArr l) -> exists p s, text = p ++ x5b :: s /\ forallb json_space p = true /\
  ((l = [] /\ exists q r, s = q ++ x5d :: r /\ forallb json_space q = true /\ forallb json_space r = true) \/
   exists f r, parse_elements f s = Some (l, r) /\ forallb json_space r = true).
Proof.
  unfold parse. destruct (parse_value (S (2 * length text)) text) as [[v r]|] eqn:E; [|discriminate]. destruct (skip_space r) eqn:R; [|discriminate].
  intros [= ->]. apply skip_nil in R. cbn [parse_value] in E. destruct (skip_space text) as [|c s] eqn:SK; [discriminate|].
  apply skip_cons in SK as (p & -> & P & C).
  destruct (Byte.eqb c x7b). { destruct (skip_space s) as [|c2 s2]; [discriminate|]. destruct (Byte.eqb c2 x7d); [discriminate|]. destruct (parse_members _ s) as [[? ?]|]; discriminate. }
  destruct (Byte.eqb c x5b) eqn:B1.
  { apply byte_eqb_eq in B1 as ->. exists p, s. split; [reflexivity|]. split; [exact P|].
    destruct (skip_space s) as [|c2 s2] eqn:S2; [discriminate|]. destruct (Byte.eqb c2 x5d) eqn:B2.
    - injection E as <- <-. left. split; [reflexivity|]. apply byte_eqb_eq in B2 as ->. apply skip_cons in S2 as (q & -> & Q & _). eauto.
    - destruct (parse_elements _ s) as [[l' r3]|] eqn:M; [|discriminate]. injection E as -> ->. right. eauto. }
  destruct (Byte.eqb c dquote). { destruct (scan_string s) as [[? ?]|]; discriminate. }
  unfold with_word in E.
  destruct (Byte.eqb c x74). { destruct (strip_word _ _); discriminate. }
  destruct (Byte.eqb c x66). { destruct (strip_word _ _); discriminate. }
  destruct (Byte.eqb c x6e). { destruct (strip_word _ _); discriminate. }
  destruct (scan_number (c :: s)) as [[? ?]|]; discriminate.
Qed.
Lemma raw_members_every text l : parse text = Some (JObj l) -> exists m, raw_members text = Some m /\ raw_members (trim text) = Some m /\
  map strip m = l /\ Forall (fun x => own_text (fst (snd x)) (snd (snd x)) /\ length (fst (snd x)) < length text) m.
Proof.
  intros E. unfold raw_members. rewrite parse_trim, E. destruct (object_text _ _ E) as (p & s & -> & P & [[-> (q & r & -> & Q & R)]|(f & r & M & R)]).
  - exists []. split; [|split; [|split; [reflexivity|constructor]]].
    + rewrite skip_put by auto. cbn [tl]. destruct (length _) eqn:L; [rewrite app_length in L; cbn [length] in L; lia|]. cbn [member_texts].
      rewrite skip_put by auto. reflexivity.
    + replace (p ++ x7b :: q ++ x7d :: r) with (p ++ (x7b :: q ++ [x7d]) ++ r) by (cbn [app]; now rewrite <- app_assoc).
      rewrite trim_core; [|exact P|exact R|exists x7b; eauto|apply ends_cons, ends_app; reflexivity]. rewrite skip_hd by reflexivity. cbn [tl length member_texts].
      rewrite skip_put by auto. reflexivity.
  - destruct (member_texts_prefix _ _ _ _ M) as (t & m & -> & M1 & M2 & _ & En & M3). exists m. split; [|split; [|split; [exact M1|]]].
    + rewrite skip_put by auto. cbn [tl]. apply M3. rewrite app_length. cbn [length]. rewrite app_length. lia.
    + change (p ++ x7b :: t ++ r) with (p ++ (x7b :: t) ++ r).
      rewrite trim_core; [|exact P|exact R|exists x7b; eauto|apply ends_cons; exact En]. rewrite skip_hd by reflexivity. cbn [tl]. rewrite <- (app_nil_r t) at 2. apply M3. cbn [length]. lia.
    + apply Forall_forall. intros x I. rewrite Forall_forall in M2. destruct (M2 x I) as [A B]. split; [exact A|]. rewrite app_length. cbn [length]. rewrite app_length. lia.
Qed.
Lemma raw_elements_every text l : parse text = Some (JArr l) -> exists m, raw_elements text = Some m /\ Forall2 own_text m l /\ Forall (fun x => length x < length text) m.
Proof.
  intros E. unfold raw_elements. rewrite E. destruct (array_text _ _ E) as (p & s & -> & P & [[-> (q & r & -> & Q & R)]|(f & r & M & R)]).
  - exists []. split; [|split; [constructor|constructor]].
    rewrite skip_put by auto. cbn [tl]. destruct (length _) eqn:L; [rewrite app_length in L; cbn [length] in L; lia|]. cbn [element_texts]. cbv zeta.
    rewrite skip_put by auto. cbn [length Nat.mul parse_value]. rewrite skip_hd by reflexivity. reflexivity.
  - destruct (element_texts_prefix _ _ _ _ M) as (t & m & -> & M1 & M2 & _ & _ & M3). exists m. split; [|split; [exact M1|]].
    + rewrite skip_put by auto. cbn [tl]. apply M3. rewrite app_length. cbn [length]. rewrite app_length. lia.
    + apply Forall_forall. intros x I. rewrite Forall_forall in M2. specialize (M2 x I). rewrite app_length. cbn [length]. rewrite app_length. lia.
Qed.
Lemma raw_members_trim text : raw_members (trim text) = raw_members text.
Proof.
  destruct (parse text) as [v|] eqn:E; [|unfold raw_members; now rewrite parse_trim, E].
  destruct v as [|b|n|r|l|l]; try (unfold raw_members; now rewrite parse_trim, E).
  destruct (raw_members_every _ _ E) as (m & -> & -> & _). reflexivity.
Qed.
Lemma trim_trim text : trim (trim text) = trim text.
Proof.
  destruct (skip_space text) as [|c s] eqn:E.
  - unfold trim. rewrite E. reflexivity.
  - apply skip_cons in E as (p & -> & P & C). unfold trim at 2 3. rewrite skip_put by assumption. cbn [rev].
    destruct (skip_split (rev s ++ [c])) as (q & Q & QF). destruct (skip_space (rev s ++ [c])) as [|d w] eqn:W.
    + exfalso. apply skip_nil in W. rewrite forallb_app in W. apply andb_prop in W as [_ W]. cbn in W. rewrite C in W. discriminate.
    + apply skip_cons in W as (q2 & W & WF & D). cbn [rev].
      assert (X : exists u, rev w ++ [d] = c :: u).
      { assert (Y : exists w', d :: w = w' ++ [c]).
        { destruct (d :: w) as [|y w'] eqn:DW using rev_ind; [discriminate|]. clear IHw'. rewrite app_assoc in Q. apply app_inj_tail in Q as [_ ->]. exists w'. reflexivity. }
        destruct Y as [w' Y]. exists (rev w'). change (rev w ++ [d]) with (rev (d :: w)). rewrite Y, rev_app_distr. reflexivity. }
      destruct X as [u X]. pose proof (trim_core [] (rev w ++ [d]) [] eq_refl eq_refl) as T. cbn [app] in T. rewrite app_nil_r in T. apply T.
      * rewrite X. eauto.
      * apply ends_app. exact D.
Qed.
Lemma pair_text text T ot : obind (raw_members text) (fun l => read_pair l ([], None)) = Some (T, Some ot) -> exists v, own_text ot v /\ length ot < length text.
Proof.
  unfold raw_members. destruct (parse text) as [v|] eqn:E; [|discriminate]. destruct v as [|b|n|r|l|l]; try discriminate.
  destruct (raw_members_every _ _ E) as (m & R & _ & _ & F). unfold raw_members in R. rewrite E in R. rewrite R. cbn [obind]. clear R.
  assert (G : forall m p, Forall (fun x => own_text (fst (snd x)) (snd (snd x)) /\ length (fst (snd x)) < length text) m ->
    (forall x, snd p = Some x -> exists v, own_text x v /\ length x < length text) -> read_pair m p = Some (T, Some ot) -> exists v, own_text ot v /\ length ot < length text); [|intros H; apply (G m ([], None) F); [discriminate|exact H]].
  clear. induction m as [|[k [x v]] m IH]; intros p F K E; cbn [read_pair] in E.
  - injection E as ->. apply K. reflexivity.
  - inversion F as [|? ? H F']; subst. cbn [fst snd] in H. destruct (unquote k) as [name|]; [|discriminate]. cbn [obind] in E.
    destruct (beqb (fold_name name) (b_ "T")).
    + destruct (read_string (fst p) v) as [t|]; [|discriminate]. cbn [obind] in E. now apply (IH (t, snd p)).
    + destruct (beqb (fold_name name) (b_ "O")).
      * apply (IH (fst p, Some x)); auto. cbn [snd]. intros y [= <-]. eauto.
      * now apply (IH p).
Qed.

(** ** FromJSON *)
Section Every.
  Variable zs : zones.
  Lemma slice_same f g skip ot : (forall x, length x < length ot -> from_text_upto zs f skip x = from_text_upto zs g skip x) -> slice_text zs f skip ot = slice_text zs g skip ot.
  Proof.
    intros H. unfold slice_text. destruct (parse ot) as [v|] eqn:E; [|unfold raw_elements; now rewrite E].
    destruct v as [|b|n|r|l|l]; try (unfold raw_elements; rewrite E; reflexivity).
    destruct (raw_elements_every _ _ E) as (m & -> & _ & F). generalize (@nil object). induction F as [|x m L F IH]; intros acc; [reflexivity|].
    unfold read_all in *. rewrite <- H by exact L. destruct (from_text_upto zs f skip x) as [[o| |]|]; auto.
  Qed.
  Lemma fuel_same f : forall g skip text, length text < f -> length text < g -> from_text_upto zs f skip text = from_text_upto zs g skip text.
  Proof.
    induction f as [|f IH]; intros g skip text Lf Lg; [lia|]. destruct g as [|g]; [lia|]. rewrite !from_text_step.
    destruct (obind (raw_members text) (fun l => read_pair l ([], None))) as [[T [ot|]]|] eqn:P; auto.
    destruct (pair_text _ _ _ P) as (v & [-> _] & L). rewrite (slice_same f g) by (intros x Lx; apply IH; lia). reflexivity.
  Qed.
  (** Fuel is never the reason of a result, and no text makes FromJSON panic. *)
  Lemma slice_total f skip ot : (forall x, length x < length ot -> exists r, from_text_upto zs f skip x = Some r /\ r <> Panic) -> exists r, slice_text zs f skip ot = Some r /\ r <> Panic.
  Proof.
    intros H. unfold slice_text. destruct (parse ot) as [v|] eqn:E; [|unfold raw_elements; rewrite E; eexists; split; [reflexivity|discriminate]].
    destruct v as [|b|n|r|l|l]; try (unfold raw_elements; rewrite E; eexists; split; [reflexivity|discriminate]).
    destruct (raw_elements_every _ _ E) as (m & -> & _ & F). generalize (@nil object). induction F as [|x m L F IH]; intros acc; [eexists; split; [reflexivity|discriminate]|].
    unfold read_all in *. destruct (H x L) as (r & -> & N). destruct r as [o| |]; [apply IH| |contradiction]. eexists; split; [reflexivity|discriminate].
  Qed.
  Lemma structure_no_panic T v : structure zs T v <> Panic.
  Proof. unfold structure, inflate. repeat match goal with |- (if ?c then _ else _) <> _ => destruct c | |- (match ?c with Some _ => _ | None => _ end) <> _ => destruct c end; discriminate. Qed.
  Lemma upto_total f : forall skip text, length text < f -> exists r, from_text_upto zs f skip text = Some r /\ r <> Panic.
  Proof.
    induction f as [|f IH]; intros skip text L; [lia|]. rewrite from_text_step.
    assert (Er : exists r : res object, Some Err = Some r /\ r <> Panic) by (eexists; split; [reflexivity|discriminate]).
    assert (Okk : forall o : object, exists r : res object, Some (Ok o) = Some r /\ r <> Panic) by (intros; eexists; split; [reflexivity|discriminate]).
    destruct (obind (raw_members text) (fun l => read_pair l ([], None))) as [[T [ot|]]|] eqn:P; auto.
    destruct (pair_text _ _ _ P) as (v & [-> _] & L2).
    assert (SL : exists r, slice_text zs f skip ot = Some r /\ r <> Panic) by (apply slice_total; intros x Lx; apply IH; lia).
    destruct (beqb T (b_ "[]")); [exact SL|]. destruct (structure zs T v) as [[o|]| |]; auto. destruct T as [|c T]; auto. destruct (Byte.eqb c x2a); auto.
    destruct (beqb T (b_ "[]")).
    - destruct SL as ([o| |] & -> & N); auto; contradiction.
    - destruct (structure zs T v) as [[o|]| |]; auto.
  Qed.
  Lemma from_total skip text : exists r, from_text zs skip text = Some r /\ r <> Panic.
  Proof. apply upto_total. lia. Qed.
  Lemma trim_length text : length (trim text) <= length text.
  Proof. destruct (trim_split text) as (p & q & E & _). rewrite E at 2. rewrite !app_length. lia. Qed.
  Lemma from_trim skip text : from_text zs skip (trim text) = from_text zs skip text.
  Proof.
    unfold from_text. rewrite (fuel_same (S (length (trim text))) (S (length text))) by (pose proof (trim_length text); lia).
    rewrite !from_text_step, raw_members_trim, trim_trim. reflexivity.
  Qed.
  (** The documents, the ones with a field for their text *)
  Definition document (o : object) : Prop := match o with OReq _ | OCert _ | OSpct _ | ORev _ | OSpcrt _ => True | _ => False end.
  Lemma document_raw x o : document o -> json_field (set_raw x o) = Some x.
  Proof. destruct o; cbn; try contradiction; reflexivity. Qed.
  Lemma document_set x o : document (set_raw x o) <-> document o.
  Proof. destruct o; reflexivity. Qed.
  Lemma slice_is f skip ot o : slice_text zs f skip ot = Some (Ok o) -> exists l, o = OSlice l.
  Proof.
    unfold slice_text. destruct (raw_elements ot) as [m|]; [|discriminate]. generalize (@nil object). induction m as [|x m IH]; intros acc; [intros [= <-]; eauto|].
    unfold read_all in *. destruct (from_text_upto zs f skip x) as [[o'| |]|]; try discriminate. apply IH.
  Qed.
  Lemma from_document text o : from_text zs false text = Some (Ok o) -> document o \/ (exists d, o = OPtr (Some d) /\ document d) ->
    json_field (match o with OPtr (Some d) => d | _ => o end) = Some (trim text).
  Proof.
    unfold from_text. rewrite from_text_step. intros E D.
    destruct (obind (raw_members text) (fun l => read_pair l ([], None))) as [[T [ot|]]|] eqn:P; try discriminate.
    destruct (parse ot) as [v|]; [|discriminate]. destruct (beqb T (b_ "[]")).
    { apply slice_is in E as [l ->]. destruct D as [[]|(d & D & _)]; discriminate D. }
    destruct (structure zs T v) as [[o'|]| |] eqn:S; try discriminate.
    - injection E as <-. cbn [keep_text] in *. destruct D as [D|(d & D & K)].
      + rewrite document_set in D. destruct o'; try contradiction; reflexivity.
      + exfalso. unfold structure, inflate in S. destruct o'; cbn [set_raw] in D; try discriminate D. injection D as ->.
        repeat match type of S with (if ?c then _ else _) = _ => destruct c | (match ?c with Some _ => _ | None => _ end) = _ => destruct c end; discriminate S.
    - destruct T as [|c T]; [discriminate|]. destruct (Byte.eqb c x2a); [|discriminate]. destruct (beqb T (b_ "[]")).
      + destruct (slice_text zs (length text) false ot) as [[o'| |]|] eqn:SL; try discriminate. injection E as <-. apply slice_is in SL as [l ->].
        destruct D as [[]|(d & D & K)]. injection D as <-. contradiction.
      + destruct (structure zs T v) as [[o'|]| |]; try discriminate. injection E as <-. cbn [keep_text] in *. destruct D as [[]|(d & D & K)]. injection D as <-.
        rewrite document_set in K. now apply document_raw.
  Qed.
  (** The text kept by a document that was read reads as this document again. *)
  Lemma from_raw text d x : from_text zs false text = Some (Ok (OPtr (Some d))) -> document d -> raw_of zs d = Ok x ->
    x = trim text /\ from_text zs false x = Some (Ok (OPtr (Some d))).
  Proof.
    intros E D R. pose proof (from_document text _ E (or_intror (ex_intro _ d (conj eq_refl D)))) as J. cbn in J.
    assert (X : raw_of zs d = Ok (trim text)) by (unfold raw_of; rewrite J; destruct d; try contradiction; reflexivity).
    rewrite X in R. injection R as <-. split; [reflexivity|]. now rewrite from_trim.
  Qed.
End Every.
