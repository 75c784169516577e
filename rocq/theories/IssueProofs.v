(** Proofs about [IssueModel]. *)
From Coq Require Import Strings.String Sorting.Permutation.
From Verif Require Import Base BaseLemmas UtilModel DbModel LoadModel PolicyModel PolicyProofs JsonText JsonModel JsonProofs JsonStable JsonUse ConfModel IssueModel.
Local Open Scope list_scope.

Section Proofs.
  Variable zs : zones.
  Variable H : bytes -> bytes.
  Variables priv pub : Type.
  Variable rsa_sign : priv -> bytes -> option bytes.
  Variable rsa_verify : pub -> bytes -> bytes -> bool.
  Variable parse_key : bytes -> option pub.
  Variable der : priv -> option bytes.
  Variable read_key : bytes -> option priv.
  Variable read_cert : bytes -> option cert.
  Variable obtain : nat -> bytes -> cert -> option timestamp.
  Variable send : nat -> bytes -> cert -> bool.
  Notation enc := (enc_json zs).
  Notation generate := (generate zs H priv rsa_sign der).
  Notation new_authority := (new_authority H priv der read_key read_cert).
  Notation new_request := (new_request zs priv).
  Notation ask := (ask obtain).
  Notation register := (register send).
  Notation issue := (issue zs H priv pub rsa_sign rsa_verify parse_key obtain send).
  Notation verify_issuer := (verify_issuer H enc pub rsa_verify parse_key).
  Notation verify_owner_cert := (verify_owner_cert H enc pub rsa_verify parse_key).
  Notation key_pair := (key_pair priv pub rsa_sign rsa_verify parse_key).
  Notation root a := (p_root _ (au_pca priv a)).
  Notation rkey a := (p_key _ (au_pca priv a)).

  (** ** The calls to the logs *)
  Lemma ask_ok set l c : forall n calls ts, ask n set l c = (calls, Ok ts) ->
    calls = map (fun s => Asked (l_url s) c) l /\ List.length ts = List.length l /\
    forall i s t, nth_error l i = Some s -> nth_error ts i = Some t -> obtain (n + i) (l_url s) c = Some t.
  Proof.
    induction l as [|s l IH]; intros n calls ts E; cbn in E.
    - injection E as <- <-. repeat split. intros [|i] s t Hs; discriminate.
    - destruct set; cbn in E; [|discriminate]. destruct (obtain n (l_url s) c) as [t|] eqn:O; [|discriminate].
      destruct (IssueModel.ask obtain (S n) true l c) as [calls' r] eqn:R. injection E as <- E. destruct r as [ts'| |]; try discriminate. injection E as <-.
      destruct (IH _ _ _ R) as (A & B & C). split; [cbn; now rewrite A|]. split; [cbn; now rewrite B|]. intros [|i] s' t' Hs Ht; cbn in Hs, Ht.
      + injection Hs as <-. injection Ht as <-. now rewrite Nat.add_0_r.
      + replace (n + S i) with (S n + i) by lia. eauto.
  Qed.
  Lemma ask_calls set l c : forall n calls r, ask n set l c = (calls, r) -> exists m, calls = map (fun s => Asked (l_url s) c) (firstn m l).
  Proof.
    induction l as [|s l IH]; intros n calls r E; cbn in E; [injection E as <- <-; exists 0; reflexivity|].
    destruct set; cbn in E; [|injection E as <- <-; exists 0; reflexivity].
    destruct (obtain n (l_url s) c); [|injection E as <- <-; exists 1; reflexivity].
    destruct (IssueModel.ask obtain (S n) true l c) as [calls' r'] eqn:R. injection E as <- _. destruct (IH _ _ _ R) as [m ->]. exists (S m). reflexivity.
  Qed.
  Lemma register_ok set l c : forall n calls, register n set l c = (calls, Ok tt) ->
    calls = map (fun s => Registered (l_url s) c) l /\ forall i s, nth_error l i = Some s -> send (n + i) (l_url s) c = true.
  Proof.
    induction l as [|s l IH]; intros n calls E; cbn in E.
    - injection E as <-. split; [reflexivity|]. intros [|i] s Hs; discriminate.
    - destruct set; cbn in E; [|discriminate]. destruct (send n (l_url s) c) eqn:O; [|discriminate].
      destruct (IssueModel.register send (S n) true l c) as [calls' r] eqn:R. injection E as <- ->.
      destruct (IH _ _ R) as (A & B). split; [cbn; now rewrite A|]. intros [|i] s' Hs; cbn in Hs.
      + injection Hs as <-. now rewrite Nat.add_0_r.
      + replace (n + S i) with (S n + i) by lia. eauto.
  Qed.
  Lemma register_calls set l c : forall n calls r, register n set l c = (calls, r) -> exists m, calls = map (fun s => Registered (l_url s) c) (firstn m l).
  Proof.
    induction l as [|s l IH]; intros n calls r E; cbn in E; [injection E as <- <-; exists 0; reflexivity|].
    destruct set; cbn in E; [|injection E as <- <-; exists 0; reflexivity].
    destruct (send n (l_url s) c); [|injection E as <- <-; exists 1; reflexivity].
    destruct (IssueModel.register send (S n) true l c) as [calls' r'] eqn:R. injection E as <- _. destruct (IH _ _ _ R) as [m ->]. exists (S m). reflexivity.
  Qed.

  (** ** SignAndLogRequest *)
  Lemma issued a req l1 l2 a' calls c : issue a req l1 l2 = (a', calls, Ok c) ->
    exists c1, sign_request_as_issuer H enc priv rsa_sign (root a) (rkey a) req = (c1, true) /\
      sign_cert_as_issuer H enc priv rsa_sign (root a) (rkey a) (mk_cert (c_fields c1) None None (c_spcts c)) = (c, true) /\
      c_fields c1 = no_raw req /\ c_spcts c1 = [] /\ c_fields c = no_raw req /\
      calls = map (fun s => Asked (l_url s) c1) l1 ++ map (fun s => Registered (l_url s) c) l2 /\
      List.length (c_spcts c) = List.length l1 /\
      (forall i s t, nth_error l1 i = Some s -> nth_error (c_spcts c) i = Some t -> obtain i (l_url s) c1 = Some t) /\
      (forall i s, nth_error l2 i = Some s -> send (List.length l1 + i) (l_url s) c = true) /\
      a' = mk_authority _ (PolicyModel.mk_pca _ (root a) (rkey a) ((H (content (f_key req)), c) :: p_db _ (au_pca _ a))) (au_logs _ a) (au_requester _ a) (au_serial _ a).
  Proof.
    unfold IssueModel.issue. destruct (can_skip _ _ _ _ _ _ _ _); try discriminate.
    destruct (sign_request_as_issuer _ _ _ _ _ _ _) as [c1 ok1] eqn:S1. destruct ok1; try discriminate.
    destruct (IssueModel.ask obtain 0 (au_requester _ a) l1 c1) as [calls1 r] eqn:A. destruct r as [ts| |]; try discriminate.
    destruct (sign_cert_as_issuer _ _ _ _ _ _ _) as [c2 ok2] eqn:S2. destruct ok2; try discriminate.
    destruct (IssueModel.register _ _ _ _ _) as [calls2 r2] eqn:R. destruct r2 as [[]| |]; try discriminate. intros [= <- <- <-].
    destruct (ask_ok _ _ _ _ _ _ A) as (A1 & A2 & A3). destruct (register_ok _ _ _ _ _ R) as (R1 & R2).
    destruct (issuer_changes _ _ _ _ _ _ _ _ _ S1) as (F1 & P1 & _). destruct (issuer_changes _ _ _ _ _ _ _ _ _ S2) as (F2 & P2 & _). cbn in F1, P1, F2, P2.
    exists c1. rewrite P2. split; [reflexivity|]. split; [exact S2|]. split; [exact F1|]. split; [exact P1|]. split; [congruence|].
    split; [now rewrite A1, R1|]. split; [exact A2|]. split; [exact A3|]. split; [exact R2|]. unfold store_in_db. rewrite F2, F1. reflexivity.
  Qed.
  Lemma not_issued a req l1 l2 a' calls r : issue a req l1 l2 = (a', calls, r) -> (forall c, r <> Ok c) -> a' = a.
  Proof.
    unfold IssueModel.issue. intros E N. destruct (can_skip _ _ _ _ _ _ _ _); try congruence.
    destruct (sign_request_as_issuer _ _ _ _ _ _ _) as [c1 ok1]. destruct ok1; try congruence.
    destruct (IssueModel.ask obtain 0 (au_requester _ a) l1 c1) as [calls1 r1]. destruct r1 as [ts| |]; try congruence.
    destruct (sign_cert_as_issuer _ _ _ _ _ _ _) as [c2 ok2]. destruct ok2; try congruence.
    destruct (IssueModel.register _ _ _ _ _) as [calls2 r2]. destruct r2 as [u| |]; try congruence.
  Qed.
  (** However it ends: what was sent to a log, and in which order *)
  Lemma all_calls a req l1 l2 a' calls r : issue a req l1 l2 = (a', calls, r) ->
    (exists c1 n, calls = map (fun s => Asked (l_url s) c1) (firstn n l1) /\ c_fields c1 = no_raw req /\ c_spcts c1 = []) \/
    exists c1 c n, calls = map (fun s => Asked (l_url s) c1) l1 ++ map (fun s => Registered (l_url s) c) (firstn n l2) /\
      sign_request_as_issuer H enc priv rsa_sign (root a) (rkey a) req = (c1, true) /\
      sign_cert_as_issuer H enc priv rsa_sign (root a) (rkey a) (mk_cert (c_fields c1) None None (c_spcts c)) = (c, true) /\
      c_fields c1 = no_raw req /\ c_spcts c1 = [] /\ c_fields c = no_raw req /\ List.length (c_spcts c) = List.length l1 /\
      forall i s t, nth_error l1 i = Some s -> nth_error (c_spcts c) i = Some t -> obtain i (l_url s) c1 = Some t.
  Proof.
    assert (N : forall (f : fields) (l : list log_conf), exists c1 n, ([] : list call) = map (fun s => Asked (l_url s) c1) (firstn n l) /\ c_fields c1 = f /\ c_spcts c1 = []).
    { intros f l. exists (mk_cert f None None []), 0. auto. }
    unfold IssueModel.issue. destruct (can_skip _ _ _ _ _ _ _ _) as [b| |]; [|intros [= <- <- <-]; left; apply N|intros [= <- <- <-]; left; apply N].
    destruct (sign_request_as_issuer _ _ _ _ _ _ _) as [c1 ok1] eqn:S1. destruct ok1; [|intros [= <- <- <-]; left; apply N].
    destruct (issuer_changes _ _ _ _ _ _ _ _ _ S1) as (F1 & P1 & _). cbn in F1, P1.
    destruct (IssueModel.ask obtain 0 (au_requester _ a) l1 c1) as [calls1 r1] eqn:A. destruct (ask_calls _ _ _ _ _ _ A) as [m M].
    destruct r1 as [ts| |]; [|intros [= <- <- <-]; left; exists c1, m; auto|intros [= <- <- <-]; left; exists c1, m; auto].
    destruct (ask_ok _ _ _ _ _ _ A) as (A1 & A2 & A3).
    destruct (sign_cert_as_issuer _ _ _ _ _ _ _) as [c2 ok2] eqn:S2. destruct ok2; [|intros [= <- <- <-]; left; exists c1, m; auto].
    destruct (issuer_changes _ _ _ _ _ _ _ _ _ S2) as (F2 & P2 & _). cbn in F2, P2.
    destruct (IssueModel.register _ _ _ _ _) as [calls2 r2] eqn:R. destruct (register_calls _ _ _ _ _ _ R) as [m2 M2].
    intros E. right. exists c1, c2, m2. rewrite P2. split; [|repeat split; try assumption; congruence].
    destruct r2; injection E as <- <- <-; now rewrite A1, M2.
  Qed.
  (** The database of the PCA changes as in [PolicyModel] *)
  Lemma issue_refines a req l1 l2 a' calls r : issue a req l1 l2 = (a', calls, r) ->
    exists spts sent, sign_and_log H enc priv pub rsa_sign rsa_verify parse_key (au_pca _ a) req spts sent = (au_pca _ a', match r with Ok c => Some c | _ => None end).
  Proof.
    unfold IssueModel.issue, sign_and_log. destruct (can_skip _ _ _ _ _ _ _ _) as [b| |]; [|intros [= <- <- <-]; exists None, false; reflexivity|intros [= <- <- <-]; exists None, false; reflexivity].
    destruct (sign_request_as_issuer _ _ _ _ _ _ _) as [c1 ok1]. destruct ok1; [|intros [= <- <- <-]; exists None, false; reflexivity].
    destruct (IssueModel.ask obtain 0 (au_requester _ a) l1 c1) as [calls1 r1].
    destruct r1 as [ts| |]; [|intros [= <- <- <-]; exists None, false; reflexivity|intros [= <- <- <-]; exists None, false; reflexivity].
    destruct (sign_cert_as_issuer _ _ _ _ _ _ _) as [c2 ok2] eqn:S2.
    destruct ok2; [|intros [= <- <- <-]; exists (Some ts), false; rewrite S2; reflexivity].
    destruct (IssueModel.register _ _ _ _ _) as [calls2 r2].
    destruct r2 as [u| |]; intros [= <- <- <-]; [exists (Some ts), true|exists (Some ts), false|exists (Some ts), false]; rewrite S2; reflexivity.
  Qed.

  (** ** Loading *)
  Lemma put_log_new h s m : ~ In h (map fst m) -> put_log h s m = m ++ [(h, s)].
  Proof.
    clear. induction m as [|[h' s'] m IH]; cbn; [reflexivity|]. intros N. destruct (beqb_spec h h') as [->|]; [tauto|]. rewrite IH; tauto.
  Qed.
  Lemma log_map_from l : forall m, NoDup (map fst m ++ map (fun s => H (content (l_key s))) l) ->
    fold_left (fun m s => put_log (H (content (l_key s))) s m) l m = m ++ map (fun s => (H (content (l_key s)), s)) l.
  Proof.
    induction l as [|s l IH]; intros m N; cbn; [now rewrite app_nil_r|]. cbn in N. rewrite put_log_new.
    - rewrite IH; [now rewrite <- app_assoc|]. rewrite map_app, <- app_assoc. exact N.
    - apply NoDup_remove_2 in N. intros I. apply N. apply in_or_app. now left.
  Qed.
  Lemma log_map_all l : NoDup (map (fun s => H (content (l_key s))) l) -> map snd (log_map H l) = l.
  Proof.
    intros N. unfold log_map. rewrite log_map_from by exact N. cbn. rewrite map_map. apply map_id.
  Qed.
  Lemma put_log_keys h s m : NoDup (map fst m) -> NoDup (map fst (put_log h s m)) /\ forall x, In x (map fst (put_log h s m)) <-> x = h \/ In x (map fst m).
  Proof.
    clear. induction m as [|[h' s'] m IH]; cbn; intros N; [split; [repeat constructor; easy|intuition]|]. inversion N as [|x l N1 N2 E]; subst.
    destruct (beqb_spec h h') as [<-|D]; cbn; [split; [exact N|intuition]|]. destruct (IH N2) as [A B]. split.
    - constructor; [rewrite B; intros [->|]; congruence|exact A].
    - intros x. rewrite B. intuition.
  Qed.
  Lemma loads text a : new_authority text = Some a ->
    exists config, read_pca zero_pca text = Some config /\ read_cert (content (pc_cert config)) = Some (root a) /\
      read_key (content (pc_key config)) = Some (rkey a) /\ der (rkey a) = Some (content (f_key (c_fields (root a)))) /\
      a = mk_authority _ (PolicyModel.mk_pca _ (root a) (rkey a) []) (log_map H (pc_logs config)) false 0.
  Proof.
    unfold IssueModel.new_authority. destruct (read_pca _ _) as [config|]; cbn; [|discriminate]. destruct (read_cert _) as [c|] eqn:C; cbn; [|discriminate].
    destruct (read_key _) as [k|] eqn:K; cbn; [|discriminate]. destruct (der k) as [d|] eqn:D; cbn; [|discriminate].
    destruct (beqb_spec (content (f_key (c_fields c))) d) as [<-|]; [|discriminate]. intros [= <-]. exists config. cbn. auto.
  Qed.

  (** ** Requests *)
  Definition same_but_serial (a a' : authority priv) : Prop := au_pca _ a' = au_pca _ a /\ au_logs _ a' = au_logs _ a /\ au_requester _ a' = au_requester _ a.
  Lemma requested a v d nb na ci co key ka sa attr sign h now a' r :
    new_request a v d nb na ci co key ka sa attr sign h now = (a', r) ->
    same_but_serial a a' /\
    (au_serial _ a' = au_serial _ a \/ au_serial _ a' = (au_serial _ a + 1)%Z) /\
    (forall req, r = Some req -> au_serial _ a' = (au_serial _ a + 1)%Z /\
       time_before nb (f_not_before (c_fields (root a))) = false /\ time_before (f_not_after (c_fields (root a))) na = false /\
       exists b, to_json enc (cert_of_request (set_owner req None h)) = Some b /\
         req = mk_fields None v (au_serial _ a + 1) d nb na ci co key ka sa now attr (sign b) h).
  Proof.
    unfold IssueModel.new_request. destruct (time_before nb _) eqn:B1; [intros [= <- <-]; repeat split; auto; discriminate|].
    destruct (time_before _ na) eqn:B2; [intros [= <- <-]; repeat split; auto; discriminate|].
    destruct (to_json _ _) as [b|] eqn:J; intros [= <- <-]; (split; [repeat split|]); (split; [right; reflexivity|]); [|discriminate].
    intros req [= <-]. cbn. split; [reflexivity|]. split; [reflexivity|]. split; [reflexivity|]. exists b. split; [exact J|reflexivity].
  Qed.
  (** An owner signature made by the signing function *)
  Lemma request_verifies a v d nb na ci co key ka sa attr sign now a' req owner k h c :
    new_request a v d nb na ci co key ka sa attr sign (Some h) now = (a', Some req) ->
    hash_as_signer H enc owner = Some h -> key_pair k owner -> (forall b, exists s, sign b = Some s /\ rsa_sign k (H b) = Some s) ->
    fields_view (c_fields c) = fields_view req -> verify_owner_cert owner c = (c, true).
  Proof.
    intros E Hh (pk & K & V) Sg F. destruct (requested _ _ _ _ _ _ _ _ _ _ _ _ _ _ _ _ E) as (_ & _ & R). destruct (R req eq_refl) as (_ & _ & _ & b & J & Q).
    destruct (Sg b) as (s & S1 & S2). unfold PolicyModel.verify_owner_cert. rewrite Hh.
    assert (Fh : f_owner_hash (c_fields c) = Some h) by (apply (f_equal f_owner_hash) in F; cbn in F; rewrite F, Q; reflexivity).
    assert (Fs : f_owner_sig (c_fields c) = Some s) by (apply (f_equal f_owner_sig) in F; cbn in F; rewrite F, Q; exact S1).
    rewrite Fh. cbn [content]. rewrite beqb_refl. cbn [negb]. rewrite K.
    assert (J2 : to_json enc (strip_for_owner c) = Some b).
    { rewrite <- J. unfold to_json. f_equal. unfold json_view, strip_for_owner, cert_of_request. cbn [c_fields c_issuer_sig c_issuer_hash c_spcts]. f_equal.
      change (fields_view (set_owner (c_fields c) None (f_owner_hash (c_fields c)))) with (set_owner (fields_view (c_fields c)) None (f_owner_hash (c_fields c))).
      rewrite F, Fh. reflexivity. }
    rewrite J2, Fs. cbn [content]. rewrite (V _ _ S2). reflexivity.
  Qed.
  (** Histories of one PCA: the requests it made so far, the last first, and those it issued *)
  Inductive history (a0 : authority priv) : list fields -> authority priv -> Prop :=
  | h_new : history a0 [] a0
  | h_request l a v d nb na ci co key ka sa attr sign h now a' req : history a0 l a ->
      new_request a v d nb na ci co key ka sa attr sign h now = (a', Some req) -> history a0 (req :: l) a'
  | h_refused l a v d nb na ci co key ka sa attr sign h now a' : history a0 l a ->
      new_request a v d nb na ci co key ka sa attr sign h now = (a', None) -> history a0 l a'
  | h_issue l a req l1 l2 a' calls r : history a0 l a -> issue a req l1 l2 = (a', calls, r) -> history a0 l a'.
  Lemma issue_serial a req l1 l2 a' calls r : issue a req l1 l2 = (a', calls, r) -> au_serial _ a' = au_serial _ a /\ root a' = root a /\ rkey a' = rkey a.
  Proof.
    intros E. destruct r as [c| |].
    - destruct (issued _ _ _ _ _ _ _ E) as (c1 & _ & _ & _ & _ & _ & _ & _ & _ & _ & ->). auto.
    - rewrite (not_issued _ _ _ _ _ _ _ E); [auto|discriminate].
    - rewrite (not_issued _ _ _ _ _ _ _ E); [auto|discriminate].
  Qed.
  Lemma serials a0 l a : history a0 l a ->
    (au_serial _ a0 <= au_serial _ a)%Z /\ NoDup (map f_serial l) /\ Forall (fun r => au_serial _ a0 < f_serial r <= au_serial _ a)%Z l.
  Proof.
    induction 1 as [|l a v d nb na ci co key ka sa attr sign h now a' req Hh IH E|l a v d nb na ci co key ka sa attr sign h now a' Hh IH E|l a req l1 l2 a' calls r Hh IH E].
    - repeat constructor. lia.
    - destruct IH as (A & B & C). destruct (requested _ _ _ _ _ _ _ _ _ _ _ _ _ _ _ _ E) as (_ & _ & R). destruct (R req eq_refl) as (S1 & _ & _ & b & _ & Q).
      assert (Q2 : f_serial req = (au_serial _ a + 1)%Z) by (rewrite Q; reflexivity). split; [lia|]. split.
      + cbn. constructor; [|exact B]. rewrite in_map_iff. intros (r & E2 & I). rewrite Forall_forall in C. specialize (C r I). lia.
      + constructor; [lia|]. eapply Forall_impl; [|exact C]. cbn. intros r ?. lia.
    - destruct IH as (A & B & C). destruct (requested _ _ _ _ _ _ _ _ _ _ _ _ _ _ _ _ E) as (_ & S1 & _). split; [lia|]. split; [exact B|].
      eapply Forall_impl; [|exact C]. cbn. intros r ?. lia.
    - destruct IH as (A & B & C). destruct (issue_serial _ _ _ _ _ _ _ E) as (-> & _). auto.
  Qed.

  (** ** The domain owner *)
  Lemma generated o d v fresh t1 t2 t3 req : generate o d v fresh t1 t2 t3 = Some req ->
    exists k key, fresh = Some k /\ der k = Some key /\ f_serial req = 0%Z /\ f_version req = v /\ f_domain req = d /\ f_key req = Some key /\
      f_can_issue req = false /\ f_can_own req = false /\ f_not_before req = t1 /\ f_not_after req = later t2 microsecond /\ f_stamp req = t3 /\
      f_key_alg req = alg_rsa /\ f_sig_alg req = alg_sha256 /\ f_attr req = mk_attr [] [] [] [] /\
      match root_of priv d o with
      | None => f_owner_sig req = None /\ f_owner_hash req = None
      | Some (c, ck) => f_can_own (c_fields c) = true /\ sign_as_owner H enc priv rsa_sign c ck (set_owner req None None) = (req, true)
      end.
  Proof.
    unfold IssueModel.generate. destruct fresh as [k|]; cbn [obind]; [|discriminate]. destruct (der k) as [key|] eqn:D; cbn [obind]; [|discriminate].
    destruct (root_of priv d o) as [[c ck]|].
    - destruct (sign_as_owner _ _ _ _ _ _ _) as [req' ok] eqn:S. destruct ok; [|discriminate]. intros [= <-].
      destruct (sign_owner_changes _ _ _ _ _ _ _ _ _ S) as [_ Q]. exists k, key.
      assert (O : f_can_own (c_fields c) = true).
      { unfold sign_as_owner in S. cbn in S. destruct (f_can_own (c_fields c)); [reflexivity|discriminate]. }
      match type of S with sign_as_owner _ _ _ _ _ _ ?x = _ => assert (Q2 : set_owner req' None None = x) by (rewrite Q; reflexivity) end.
      rewrite Q2. split; [reflexivity|]. split; [exact D|]. do 12 (split; [rewrite Q; reflexivity|]). split; [exact O|exact S].
    - intros [= <-]. exists k, key. repeat split; auto.
  Qed.
  Lemma root_none d (o : roots priv) : ~ In d (map fst o) -> root_of priv d o = None.
  Proof.
    induction o as [|[d' x] o IH]; intros N; [reflexivity|]. cbn [root_of]. destruct (beqb d d') eqn:E; [|apply IH; intros I; apply N; right; exact I].
    apply beqb_eq in E as ->. exfalso. apply N. left. reflexivity.
  Qed.
  Lemma root_in d x (o : roots priv) : NoDup (map fst o) -> In (d, x) o -> root_of priv d o = Some x.
  Proof.
    induction o as [|[d' y] o IH]; intros D I; [destruct I|]. inversion D as [|? ? N D']; subst. cbn [root_of]. destruct I as [[= -> ->]|I]; [now rewrite beqb_refl|].
    destruct (beqb d d') eqn:E; [|auto]. apply beqb_eq in E as ->. exfalso. apply N. change d' with (fst (d', x)). apply in_map, I.
  Qed.
  Lemma never_owner o d v fresh t1 t2 t3 c ck : root_of priv d o = Some (c, ck) -> f_can_own (c_fields c) = false -> generate o d v fresh t1 t2 t3 = None.
  Proof.
    intros R O. unfold IssueModel.generate. destruct fresh as [k|]; cbn [obind]; [|reflexivity]. destruct (der k) as [key|]; cbn [obind]; [|reflexivity].
    rewrite R. unfold sign_as_owner. cbn. rewrite O. reflexivity.
  Qed.

  (** ** Timestamps *)
  Lemma stamp_says (G : bytes -> Prop) c v log k now t pk d e b :
    (forall x y, G x -> G y -> H x = H y -> x = y) ->
    (forall (pk : pub) h h' s, rsa_verify pk h s = true -> rsa_verify pk h' s = true -> h = h') ->
    (forall h s, rsa_sign k h = Some s -> rsa_verify pk h s = true) ->
    sign_timestamp zs H priv rsa_sign c v log k now = Some t ->
    cert_int c -> cert_plain zs c -> cert_int d -> cert_plain zs d -> ts_int t -> ts_plain zs t ->
    to_json enc d = Some e -> stamp_text zs (mk_ts None (ts_version t) (ts_log t) (ts_added t) None) e = Some b -> 
    rsa_verify pk (H b) (content (ts_sig t)) = true -> G b ->
    (forall e1 b1, to_json enc c = Some e1 -> stamp_text zs (mk_ts None (ts_version t) (ts_log t) (ts_added t) None) e1 = Some b1 -> G b1) -> same_cert c d.
  Proof.
    intros Inj Uni Sg St Ic Pc Id Pd It Pt J B V Gb Gc. unfold sign_timestamp in St. destruct (to_json enc c) as [e1|] eqn:J1; cbn [obind] in St; [|discriminate].
    destruct (stamp_text zs _ e1) as [b1|] eqn:B1; cbn [obind] in St; [|discriminate]. destruct (rsa_sign k (H b1)) as [s|] eqn:S; cbn [obind] in St; [|discriminate].
    injection St as <-. cbn [ts_version ts_log ts_added ts_sig content] in *.
    specialize (Gc e1 b1 eq_refl B1). assert (b1 = b) by (apply Inj; auto; eapply Uni; [apply Sg; exact S|exact V]). subst b1.
    assert (E : e1 = e).
    { unfold stamp_text in B, B1. destruct (to_text zs _) as [x| |] eqn:X in B1; try discriminate. destruct (to_text zs _) as [y| |] eqn:Y in B; try discriminate.
      injection B1 as ->. injection B as ->. cbn [ts_version ts_log ts_added ts_sig] in X, Y.
      assert (Q : same_object (OPtr (Some (OSig (mk_ts None v log now None) (Some e1)))) (OPtr (Some (OSig (mk_ts None v log now None) (Some e))))).
      { apply (object_text zs _ _ b); try exact X; try exact Y; try (cbn; exact It); try (cbn; exact Pt). }
      destruct Q as [_ Q]. exact Q. }
    subst e1. eapply text_says; eauto.
  Qed.
End Proofs.

(** ** The timestamps of an issued certificate *)
Section Lost.
  Variable zs : zones.
  Variable H : bytes -> bytes.
  Variables priv pub : Type.
  Variable rsa_sign : priv -> bytes -> option bytes.
  Variable rsa_verify : pub -> bytes -> bytes -> bool.
  Variable parse_key : bytes -> option pub.
  Variable obtain : nat -> bytes -> cert -> option timestamp.
  Variable send : nat -> bytes -> cert -> bool.
  Notation enc := (enc_json zs).
  Notation issue := (issue zs H priv pub rsa_sign rsa_verify parse_key obtain send).
  (** The certificate with or without its issuer signature, with or without its timestamps *)
  Definition shown (c d : cert) : Prop :=
    c_fields d = c_fields c /\ c_issuer_hash d = c_issuer_hash c /\ (c_issuer_sig d = c_issuer_sig c \/ c_issuer_sig d = None) /\
    (c_spcts d = c_spcts c \/ c_spcts d = []).
  Lemma issuer_text issuer k c c' : sign_cert_as_issuer H enc priv rsa_sign issuer k c = (c', true) ->
    exists h s b, hash_as_signer H enc issuer = Some h /\ c_issuer_hash c' = Some h /\ c_issuer_sig c' = Some s /\
      to_json enc (mk_cert (c_fields c') None (c_issuer_hash c') (c_spcts c')) = Some b /\ rsa_sign k (H b) = Some s.
  Proof.
    unfold sign_cert_as_issuer. destruct (is_nil (c_issuer_sig c)) eqn:N; cbn [negb orb]; [|intros [= <- E]; discriminate].
    destruct (is_nil (c_issuer_hash c)); cbn [negb]; [|intros [= <- E]; discriminate].
    destruct (hash_as_signer H enc issuer) as [h|]; [|discriminate]. destruct (sign_struct _ _ _ _ _ k) as [s|] eqn:S; [|discriminate]. intros [= <-].
    cbn. unfold sign_struct in S. destruct (c_issuer_sig c); [discriminate N|]. destruct (to_json enc _) as [b|] eqn:J; [|discriminate].
    exists h, s, b. auto.
  Qed.
  Lemma stamps_lost (G : bytes -> Prop) (key_of : bytes -> priv) (pub_of : bytes -> pub) a req l1 l2 a' calls c u c1 i s t d e b :
    (forall x y, G x -> G y -> H x = H y -> x = y) ->
    (forall (pk : pub) h h' s, rsa_verify pk h s = true -> rsa_verify pk h' s = true -> h = h') ->
    (forall k h s, rsa_sign k h = Some s -> s <> []) ->
    key_pair priv pub rsa_sign rsa_verify parse_key (p_key _ (au_pca _ a)) (p_root _ (au_pca _ a)) ->
    (forall u h s, rsa_sign (key_of u) h = Some s -> rsa_verify (pub_of u) h s = true) ->
    (forall n u x t, obtain n u x = Some t -> exists v log now, sign_timestamp zs H priv rsa_sign x v log (key_of u) now = Some t) ->
    issue a req l1 l2 = (a', calls, Ok c) -> In (Asked u c1) calls ->
    (forall x e, c_fields x = c_fields c -> c_issuer_hash x = c_issuer_hash c -> In (c_issuer_sig x) [c_issuer_sig c1; c_issuer_sig c; None] ->
       In (c_spcts x) [[]; c_spcts c] -> to_json enc x = Some e ->
       G e /\ forall t b, In t (c_spcts c) -> stamp_text zs (mk_ts None (ts_version t) (ts_log t) (ts_added t) None) e = Some b -> G b) ->
    cert_int c -> cert_plain zs c ->
    nth_error l1 i = Some s -> nth_error (c_spcts c) i = Some t -> shown c d ->
    to_json enc d = Some e -> stamp_text zs (mk_ts None (ts_version t) (ts_log t) (ts_added t) None) e = Some b ->
    rsa_verify (pub_of (l_url s)) (H b) (content (ts_sig t)) = false.
  Proof.
    intros Inj Uni Ne Kp Lk Ob E Ia Gs [Ic1 Ic2] [Pc1 Pc2] Ns Nt (D1 & D2 & D3 & D4) Je Jb.
    destruct (issued _ _ _ _ _ _ _ _ _ _ _ _ _ _ _ _ E) as (c1' & S1 & S2 & F1 & P1 & F & Ca & Le & An & _).
    assert (c1' = c1).
    { rewrite Ca in Ia. apply in_app_or in Ia as [Ia|Ia]; apply in_map_iff in Ia as (x & Q & _); congruence. }
    subst c1'. specialize (An i s t Ns Nt). destruct (Ob _ _ _ _ An) as (v & log & now & St).
    destruct (issuer_text _ _ _ _ S1) as (h1 & s1 & b1 & Hh1 & I1 & J1 & T1 & R1). destruct (issuer_text _ _ _ _ S2) as (h2 & s2 & b2 & Hh2 & I2 & J2 & T2 & R2).
    assert (Ih : c_issuer_hash c1 = c_issuer_hash c) by congruence.
    assert (Fc : c_fields c1 = c_fields c) by congruence.
    assert (It : In t (c_spcts c)) by (eapply nth_error_In; eauto).
    destruct (rsa_verify _ _ _) eqn:V; [|reflexivity]. exfalso.
    assert (Same : same_cert c1 d).
    { apply (stamp_says zs H priv pub rsa_sign rsa_verify G c1 v log (key_of (l_url s)) now t (pub_of (l_url s)) d e b); auto.
      - split; [now rewrite Fc|rewrite P1; constructor].
      - split; [now rewrite Fc|rewrite P1; constructor].
      - split; [now rewrite D1|]. destruct D4 as [-> | ->]; [exact Ic2|constructor].
      - split; [now rewrite D1|]. destruct D4 as [-> | ->]; [exact Pc2|constructor].
      - rewrite Forall_forall in Ic2. auto.
      - rewrite Forall_forall in Pc2. auto.
      - assert (G e /\ forall t b, In t (c_spcts c) -> stamp_text zs (mk_ts None (ts_version t) (ts_log t) (ts_added t) None) e = Some b -> G b) as [_ Q].
        { apply (Gs d e); auto; [destruct D3 as [-> | ->]; cbn; auto|destruct D4 as [-> | ->]; cbn; auto]. }
        exact (Q t b It Jb).
      - intros e1 b1' Je1 Jb1. assert (G e1 /\ forall t b, In t (c_spcts c) -> stamp_text zs (mk_ts None (ts_version t) (ts_log t) (ts_added t) None) e1 = Some b -> G b) as [_ Q].
        { apply (Gs c1 e1); auto; cbn; auto. }
        exact (Q t b1' It Jb1). }
    destruct Same as (_ & Si & _ & Sp). rewrite P1 in Sp. inversion Sp as [Ed|]. 
    rewrite J1 in Si. cbn in Si. destruct D3 as [D3|D3]; rewrite D3 in Si; [|cbn in Si; exact (Ne _ _ _ R1 Si)].
    rewrite J2 in Si. cbn in Si. subst s2. destruct Kp as (pk & _ & Vk).
    assert (Q : H b1 = H b2) by (apply (Uni pk _ _ s1); auto).
    assert (b1 = b2).
    { apply Inj; [| |exact Q].
      - destruct (Gs (mk_cert (c_fields c1) None (c_issuer_hash c1) (c_spcts c1)) b1); cbn; auto.
      - destruct (Gs (mk_cert (c_fields c) None (c_issuer_hash c) (c_spcts c)) b2); cbn; auto. }
    subst b2.
    assert (Sm : same_cert (mk_cert (c_fields c1) None (c_issuer_hash c1) (c_spcts c1)) (mk_cert (c_fields c) None (c_issuer_hash c) (c_spcts c))).
    { apply (text_says zs _ _ b1); auto; try (split; cbn; rewrite ?Fc, ?P1; auto; constructor). }
    destruct Sm as (_ & _ & _ & Sp2). cbn in Sp2. rewrite P1 in Sp2. destruct (c_spcts c); [exact It|inversion Sp2].
  Qed.
End Lost.
