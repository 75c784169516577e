(** C97: the ingest command hands over to the map server. *)
From Coq Require Import Strings.String.
From Verif Require Import Base BaseLemmas UtilModel DbModel JsonText JsonModel ConfModel DsnModel DsnProofs DirModel DirProofs.
Local Open Scope list_scope.
Local Open Scope bool_scope.
Local Notation length := List.length.
Local Notation b_ s := (list_byte_of_string s%string).

(** ** The URL of a directory *)
(** The directory is named like the URL with "_" for "/". In whatever folder it is, the URL is that of the text, as url.Parse and String give it. *)
Theorem C97_name : forall folder u, u <> [] -> u <> b_ "." -> u <> b_ ".." -> ~ In x5f u ->
  derive (folder ++ b_ "/" ++ fold_name u) = canonical u /\ derive (fold_name u) = canonical u.
Proof.
  intros folder u N D1 D2 H. assert (P : proper (fold_name u)) by (split; [destruct u; [congruence|discriminate]|apply fold_free]).
  assert (E : forall s, ~ In x5f s -> ~ In slash s -> fold_name u = s -> u = s).
  { intros s U S E. rewrite <- (unfold_fold u H), E. unfold unfold_name. rewrite <- (map_id s) at 2. apply map_ext_in. intros c I. destruct (Byte.eqb c x5f) eqn:X; [|reflexivity]. apply byte_eqb_eq in X. now subst. }
  assert (A : fold_name u <> dot) by (intros X; apply D1; apply E; [cbn; intuition discriminate|cbn; intuition discriminate|exact X]).
  assert (B : fold_name u <> dotdot) by (intros X; apply D2; apply E; [cbn; intuition discriminate|cbn; intuition discriminate|exact X]).
  split; unfold derive.
  - rewrite beqb_false by (destruct folder; discriminate). change (folder ++ b_ "/" ++ fold_name u) with (folder ++ slash :: fold_name u). rewrite base_of by assumption. now rewrite unfold_fold.
  - rewrite beqb_false by (destruct P; assumption). rewrite base_of_alone by assumption. now rewrite unfold_fold.
Qed.
(** For a URL of a scheme in small letters, a plain host with or without a port, and a path without escapes, this is the URL itself. *)
Theorem C97_plain : forall folder scheme host port path, let u := scheme ++ b_ "://" ++ host ++ port ++ path in
  (exists c r, scheme = c :: r /\ within 97 122 c = true /\ forallb (fun d => within 97 122 d || within 48 57 d || among "+-." d) r = true) ->
  host <> [] -> forallb (fun c => alnum c || among "-.~!$&'()*+,;=" c) host = true ->
  (port = [] \/ exists d, port = x3a :: d /\ forallb (within 48 57) d = true) ->
  (path = [] \/ exists p, path = x2f :: p) -> forallb (fun c => alnum c || among "-.~$&+,/:;=@!'()*[]" c) path = true ->
  derive (folder ++ b_ "/" ++ fold_name u) = Url u /\ derive (fold_name u) = Url u.
Proof.
  intros folder scheme host port path u S Nh Hh Hp Pp Hs.
  assert (P : plain_url u).
  { exists scheme, host, port, path. split; [reflexivity|]. split; [exact S|]. split; [exact Nh|]. split; [exact Hh|]. split; [exact Hp|]. split; [exact Pp|].
    rewrite forallb_forall in *. intros c I. apply Hs in I. clear - I. destruct c; try discriminate I; reflexivity. }
  rewrite <- (plain_canonical u P). destruct S as (c & r & -> & Hc & Hr). apply C97_name.
  - discriminate.
  - intros E. injection E as -> _. discriminate Hc.
  - intros E. injection E as -> _. discriminate Hc.
  - unfold u. intros I. change (b_ "://") with [x3a; slash; slash] in I. rewrite !in_app_iff in I. cbn [In] in I. rewrite forallb_forall in Hr, Hh, Hs.
    destruct I as [[->|I]|[I|[I|[I|I]]]].
    + discriminate Hc.
    + apply Hr in I. discriminate I.
    + destruct I as [I|[I|[I|[]]]]; discriminate I.
    + apply Hh in I. discriminate I.
    + destruct Hp as [->|(d & -> & D)]; [destruct I|]. destruct I as [I|I]; [discriminate I|]. rewrite forallb_forall in D. apply D in I. discriminate I.
    + apply Hs in I. discriminate I.
Qed.
(** Other ways to write the path give the same URL. *)
Theorem C97_written : forall p q x, x <> [] -> x <> b_ "." -> x <> b_ ".." -> ~ In x2f x ->
  (p <> [] -> derive (p ++ b_ "/") = derive p /\ derive (p ++ b_ "/.") = derive p /\ derive (p ++ b_ "/" ++ x ++ b_ "/..") = derive p) /\
  derive (p ++ b_ "//" ++ q) = derive (p ++ b_ "/" ++ q) /\ derive (p ++ b_ "/./" ++ q) = derive (p ++ b_ "/" ++ q) /\
  derive (p ++ b_ "/" ++ x ++ b_ "/../" ++ q) = derive (p ++ b_ "/" ++ q).
Proof.
  intros p q x N D1 D2 S.
  assert (X : forall r st, fold_left (clean_part r) (parts (x ++ slash :: dotdot)) st = st).
  { intros r st. rewrite parts_app, (parts_plain x) by exact S. cbn [app]. change (parts dotdot) with [dotdot]. cbn [fold_left].
    rewrite (clean_part_push r st x) by assumption. unfold clean_part. cbn [beqb]. change (beqb dotdot [] || beqb dotdot dot) with false. change (beqb dotdot dotdot) with true. cbv iota. now rewrite beqb_false by exact D2. }
  assert (same_end : forall m, p <> [] -> (forall r st, fold_left (clean_part r) (parts m) st = st) -> derive (p ++ slash :: m) = derive p).
  { intros m Np H. unfold derive. rewrite !beqb_false by (destruct p; [congruence|discriminate]). f_equal. f_equal. apply base_same; [now apply kept_end|]. destruct p; [congruence|reflexivity]. }
  assert (same_mid : forall m, (forall r st, fold_left (clean_part r) (parts m) st = st) -> derive (p ++ slash :: m ++ slash :: q) = derive (p ++ slash :: q)).
  { intros m H. unfold derive. rewrite !beqb_false by (destruct p; discriminate). f_equal. f_equal. apply base_same; [now apply (kept_between p (parts m))|]. apply rooted_app. }
  split; [intros Np; split; [|split]|split; [|split]].
  - apply (same_end [] Np). reflexivity.
  - apply (same_end dot Np). reflexivity.
  - change (p ++ b_ "/" ++ x ++ b_ "/..") with (p ++ slash :: (x ++ slash :: dotdot)). apply (same_end _ Np X).
  - apply (same_mid []). reflexivity.
  - apply (same_mid dot). reflexivity.
  - replace (p ++ b_ "/" ++ x ++ b_ "/../" ++ q) with (p ++ slash :: (x ++ slash :: dotdot) ++ slash :: q) by (rewrite <- !app_assoc; reflexivity). apply (same_mid _ X).
Qed.
(** What is derived always has a scheme and something after it. *)
Theorem C97_shape : forall dir u, derive dir = Url u -> exists scheme rest, scheme <> [] /\ rest <> [] /\ u = scheme ++ b_ "://" ++ rest.
Proof. intros dir u. unfold derive. destruct (beqb dir []); [discriminate|]. apply canonical_shape. Qed.

(** ** The handover *)
Section Handover.
  Variable hash : bytes -> bytes.
  (** The URLs that events write to; [apart]: none has the same hash as u without being u *)
  Definition writes (e : event) (w : bytes) : Prop := match e with Ingested dir _ => derive dir = Url w | Served w' _ _ => w' = w end.
  Definition apart (u : bytes) (l : list event) : Prop := forall e w, In e l -> writes e w -> hash w = hash u -> w = u.
  (** After any events, if the last one for the URL is the record of an ingestion, the map server goes on with the size of it. *)
  Theorem C97_handover : forall l1 dir u size l2, derive dir = Url u -> apart u l2 -> (forall e, In e l2 -> ~ writes e u) ->
    last_state hash u (after hash (l1 ++ Ingested dir size :: l2)) = (size, None).
  Proof.
    intros l1 dir u size l2 D A N. apply last_write; [cbn [written]; now rewrite D|]. intros e w v I W E. apply (N e I).
    assert (X : writes e w). { destruct e as [d s|w' s h]; cbn [written writes] in *; [destruct (derive d); congruence|congruence]. }
    rewrite <- (A e w I X (eq_sym E)). exact X.
  Qed.
  (** The same for a state that the map server recorded. *)
  Theorem C97_own : forall l1 u size sth l2, apart u l2 -> (forall e, In e l2 -> ~ writes e u) -> last_state hash u (after hash (l1 ++ Served u size sth :: l2)) = (size, sth).
  Proof.
    intros l1 u size sth l2 A N. apply last_write; [reflexivity|]. intros e w v I W E. apply (N e I).
    assert (X : writes e w). { destruct e as [d s|w' s h]; cbn [written writes] in *; [destruct (derive d); congruence|congruence]. }
    rewrite <- (A e w I X (eq_sym E)). exact X.
  Qed.
  (** If nothing was recorded for the URL it begins with 0. *)
  Theorem C97_fresh : forall u l, apart u l -> (forall e, In e l -> ~ writes e u) -> last_state hash u (after hash l) = (0%Z, None).
  Proof.
    intros u l A N. apply last_never. intros e w v I W E. apply (N e I).
    assert (X : writes e w). { destruct e as [d s|w' s h]; cbn [written writes] in *; [destruct (derive d); congruence|congruence]. }
    rewrite <- (A e w I X (eq_sym E)). exact X.
  Qed.
End Handover.

(** ** Concrete cases *)
Definition xenon : bytes := b_ "https://ct.googleapis.com/logs/eu1/xenon2026h1".
Definition xenon_dir : bytes := b_ "/mnt/data/certificatestore/https:__ct.googleapis.com_logs_eu1_xenon2026h1".
Example C97_ex : derive xenon_dir = Url xenon /\ derive (xenon_dir ++ b_ "/bundled/..//.") = Url xenon /\ fold_name xenon = b_ "https:__ct.googleapis.com_logs_eu1_xenon2026h1" /\
  derive (b_ "certs") = Refused /\ derive (b_ "..") = Refused /\ derive (b_ "/") = Refused /\ derive (b_ "https:_h") = Refused /\ derive (b_ "https:__h:x_") = Refused.
Proof. vm_compute. repeat split; reflexivity. Qed.
Example C97_plain_ex : xenon = b_ "https" ++ b_ "://" ++ b_ "ct.googleapis.com" ++ [] ++ b_ "/logs/eu1/xenon2026h1" /\
  forallb (fun c => alnum c || among "-.~!$&'()*+,;=" c) (b_ "ct.googleapis.com") = true /\
  forallb (fun c => alnum c || among "-.~$&+,/:;=@!'()*[]" c) (b_ "/logs/eu1/xenon2026h1") = true.
Proof. vm_compute. repeat split; reflexivity. Qed.
Example C97_handover_ex : let l2 := [Served (b_ "https://other") 7 (Some (b_ "sth")); Ingested (b_ "/x/https:__third") 3] in
  apart (fun u => u) xenon l2 /\ (forall e, In e l2 -> ~ writes e xenon) /\
  last_state (fun u => u) xenon (after (fun u => u) ([Served xenon 9 None] ++ Ingested xenon_dir 5000 :: l2)) = (5000%Z, None).
Proof.
  split; [intros e w _ _ E; exact E|]. split; [|vm_compute; reflexivity].
  intros e [<-|[<-|[]]] W; vm_compute in W; discriminate W.
Qed.

(** ** What is false *)
(** A URL with an underscore: its directory gives another URL, that of another log, and the map server of this one begins with 0. *)
Theorem C97_underscore_refuted : exists folder u v, derive (folder ++ b_ "/" ++ fold_name u) = Url v /\ canonical u = Url u /\ u <> v /\ fold_name u = fold_name v /\
  last_state (fun u => u) u (after (fun u => u) [Ingested (folder ++ b_ "/" ++ fold_name u) 5000]) = (0%Z, None) /\
  last_state (fun u => u) v (after (fun u => u) [Ingested (folder ++ b_ "/" ++ fold_name u) 5000]) = (5000%Z, None).
Proof.
  exists (b_ "/mnt"), (b_ "https://ct.example/log_2026"), (b_ "https://ct.example/log/2026").
  split; [vm_compute; reflexivity|]. split; [vm_compute; reflexivity|]. split; [discriminate|]. split; [vm_compute; reflexivity|]. split; vm_compute; reflexivity.
Qed.
(** Two directories with different names may record for the same URL: then one overwrites the other. *)
Theorem C97_shared_refuted : exists d1 d2 u, base (clean_path d1) <> base (clean_path d2) /\ derive d1 = Url u /\ derive d2 = Url u /\
  last_state (fun u => u) u (after (fun u => u) [Ingested d1 5000; Ingested d2 30]) = (30%Z, None).
Proof. exists (b_ "/a/https:__ct.example_log"), (b_ "/a/HTTPS:__ct.example_log"), (b_ "https://ct.example/log"). split; [vm_compute; discriminate|]. repeat split; vm_compute; reflexivity. Qed.
(** The recorded size may go down, and the signed tree head is lost, if the map server was farther than the ingestion. *)
Theorem C97_lower_refuted : exists dir u n m sth, derive dir = Url u /\ (n < m)%Z /\
  last_state (fun u => u) u (after (fun u => u) [Served u m (Some sth)]) = (m, Some sth) /\
  last_state (fun u => u) u (after (fun u => u) [Served u m (Some sth); Ingested dir n]) = (n, None).
Proof. exists xenon_dir, xenon, 5000%Z, 9000%Z, (b_ "head"). split; [vm_compute; reflexivity|]. split; [lia|]. split; vm_compute; reflexivity. Qed.
(** A URL that ends with a slash, as in the sample configuration, is another one than that of the directory without it. *)
Theorem C97_slash_refuted : exists dir u, derive dir = Url u /\ derive (dir ++ b_ "/") = Url u /\
  last_state (fun u => u) (u ++ b_ "/") (after (fun u => u) [Ingested (dir ++ b_ "/") 5000]) = (0%Z, None).
Proof. exists xenon_dir, xenon. repeat split; vm_compute; reflexivity. Qed.

Print Assumptions C97_name. Print Assumptions C97_plain. Print Assumptions C97_written. Print Assumptions C97_shape. Print Assumptions C97_handover. Print Assumptions C97_own.
Print Assumptions C97_fresh. Print Assumptions C97_underscore_refuted. Print Assumptions C97_shared_refuted. Print Assumptions C97_lower_refuted. Print Assumptions C97_slash_refuted.
