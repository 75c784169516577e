(** Proofs about DirModel. *)
From Coq Require Import Strings.String.
From Verif Require Import Base BaseLemmas UtilModel DbModel JsonText JsonModel ConfModel DsnModel DsnProofs DirModel.
Local Open Scope list_scope.
Local Open Scope bool_scope.
Local Notation length := List.length.

(** ** Paths *)
Lemma parts_not_nil s : parts s <> [].
Proof. destruct s as [|c s]; [discriminate|]. cbn [parts]. destruct (Byte.eqb c slash); [discriminate|]. destruct (parts s); discriminate. Qed.
Lemma parts_app p q : parts (p ++ slash :: q) = parts p ++ parts q.
Proof.
  induction p as [|c p IH]; [reflexivity|]. cbn [app parts]. destruct (Byte.eqb c slash); [now rewrite IH|]. rewrite IH.
  destruct (parts p) as [|x l] eqn:E; [destruct (parts_not_nil p E)|reflexivity].
Qed.
Lemma parts_plain q : ~ In slash q -> parts q = [q].
Proof.
  induction q as [|c q IH]; [reflexivity|]. intros N. cbn [parts]. destruct (Byte.eqb c slash) eqn:E; [apply byte_eqb_eq in E; destruct N; now left|].
  rewrite IH; [reflexivity|]. intros I. apply N. now right.
Qed.
Lemma parts_free s x : In x (parts s) -> ~ In slash x.
Proof.
  revert x. induction s as [|c s IH]; intros x.
  - intros [<-|[]] [].
  - cbn [parts]. destruct (Byte.eqb c slash) eqn:E.
    + intros [<-|I]; [intros []|now apply IH].
    + destruct (parts s) as [|y l].
      * intros [<-|[]] [->|[]]. discriminate.
      * intros [<-|I]; [|apply IH; now right]. intros [->|I]; [discriminate|]. apply (IH y); [now left|exact I].
Qed.
Definition proper (x : bytes) : Prop := x <> [] /\ ~ In slash x.
Lemma clean_part_proper r st x : ~ In slash x -> Forall proper st -> Forall proper (clean_part r st x).
Proof.
  intros Nx F. unfold clean_part. destruct (beqb x [] || beqb x dot) eqn:E1; [exact F|].
  assert (D : proper dotdot) by (split; [discriminate|]; cbn; intros [H|[H|[]]]; discriminate H).
  destruct (beqb x dotdot) eqn:E2.
  - destruct st as [|y st]; [destruct r; auto|]. inversion F; subst. destruct (beqb y dotdot); auto.
  - constructor; [|exact F]. split; [|exact Nx]. intros ->. discriminate E1.
Qed.
Lemma kept_proper p : Forall proper (kept p).
Proof.
  unfold kept. assert (G : forall l st, (forall x, In x l -> ~ In slash x) -> Forall proper st -> Forall proper (fold_left (clean_part (rooted p)) l st)).
  { induction l as [|x l IH]; intros st H F; [exact F|]. cbn [fold_left]. apply IH; [intros y I; apply H; now right|]. apply clean_part_proper; [apply H; now left|exact F]. }
  apply G; [|constructor]. intros x. apply parts_free.
Qed.
(** [join] of a list that ends with x *)
Lemma join_last l x : exists pre, join (l ++ [x]) = pre ++ x /\ (pre = [] \/ exists pre', pre = pre' ++ [slash]).
Proof.
  induction l as [|y l IH]; [exists []; auto|]. destruct IH as (pre & E & H).
  assert (J : join ((y :: l) ++ [x]) = y ++ slash :: join (l ++ [x])) by (cbn [app join]; destruct (l ++ [x]) eqn:E'; [destruct l; discriminate|reflexivity]).
  rewrite J, E. exists (y ++ slash :: pre). split; [now rewrite <- app_assoc|]. right.
  destruct H as [->|(pre' & ->)]; [exists y; reflexivity|exists (y ++ slash :: pre'); now rewrite <- app_assoc].
Qed.
Lemma strip_front_proper x s : x <> [] -> ~ In slash x -> strip_front (x ++ s) = x ++ s.
Proof. destruct x as [|c x]; [congruence|]. intros _ N. cbn [app strip_front]. destruct (Byte.eqb c slash) eqn:E; [apply byte_eqb_eq in E; destruct N; now left|reflexivity]. Qed.
Lemma base_last pre x : proper x -> (pre = [] \/ exists pre', pre = pre' ++ [slash]) -> base (pre ++ x) = x.
Proof.
  intros [Nx Sx] H. unfold base. rewrite beqb_false by (destruct pre, x; try congruence; discriminate).
  assert (R : rev (strip_front (rev (pre ++ x))) = pre ++ x).
  { rewrite rev_app_distr, strip_front_proper, rev_app_distr, !rev_involutive; [reflexivity| |].
    - intros E. apply Nx. rewrite <- (rev_involutive x), E. reflexivity.
    - intros I. apply Sx. now apply in_rev. }
  rewrite R. rewrite beqb_false by (destruct pre, x; try congruence; discriminate).
  destruct H as [->|(pre' & ->)].
  - cbn [app]. rewrite parts_plain by exact Sx. reflexivity.
  - rewrite <- app_assoc. cbn [app]. rewrite parts_app, (parts_plain x) by exact Sx. apply last_last.
Qed.
Lemma base_clean p : base (clean_path p) = match kept p with x :: _ => x | [] => if rooted p then [slash] else dot end.
Proof.
  unfold clean_path. pose proof (kept_proper p) as F. destruct (kept p) as [|x st].
  - cbn [rev join]. destruct (rooted p); reflexivity.
  - inversion F as [|? ? Px _]; subst. cbn [rev]. destruct (join_last (rev st) x) as (pre & -> & H). destruct (rooted p).
    + change (slash :: pre ++ x) with ((slash :: pre) ++ x). apply base_last; [exact Px|]. right. destruct H as [->|(pre' & ->)]; [exists []; reflexivity|exists (slash :: pre'); reflexivity].
    + rewrite beqb_false by (destruct Px as [Px _]; destruct pre, x; try congruence; discriminate). now apply base_last.
Qed.
Lemma rooted_app p q r : rooted (p ++ slash :: q) = rooted (p ++ slash :: r).
Proof. destruct p as [|c p]; reflexivity. Qed.
Lemma clean_part_skip r st x : x = [] \/ x = dot -> clean_part r st x = st.
Proof. intros [-> | ->]; reflexivity. Qed.
Lemma clean_part_push r st x : x <> [] -> x <> dot -> x <> dotdot -> clean_part r st x = x :: st.
Proof. intros A B C. unfold clean_part. now rewrite !beqb_false by assumption. Qed.
(** A last part with a name of its own *)
Lemma base_of p x : proper x -> x <> dot -> x <> dotdot -> base (clean_path (p ++ slash :: x)) = x.
Proof.
  intros [N S] D1 D2. rewrite base_clean. unfold kept. rewrite parts_app, fold_left_app, (parts_plain x) by exact S. cbn [fold_left]. now rewrite clean_part_push.
Qed.
Lemma base_of_alone x : proper x -> x <> dot -> x <> dotdot -> base (clean_path x) = x.
Proof.
  intros [N S] D1 D2. rewrite base_clean. unfold kept. rewrite (parts_plain x) by exact S. cbn [fold_left]. now rewrite clean_part_push.
Qed.
(** Other ways to write the same path *)
Lemma kept_between p x q : (forall r st, fold_left (clean_part r) x st = st) -> forall m, parts m = x -> kept (p ++ slash :: m ++ slash :: q) = kept (p ++ slash :: q).
Proof.
  intros H m E. unfold kept. rewrite (rooted_app p (m ++ slash :: q) q). rewrite parts_app, parts_app, E, parts_app, !fold_left_app. now rewrite H.
Qed.
Lemma kept_end p m : p <> [] -> (forall r st, fold_left (clean_part r) (parts m) st = st) -> kept (p ++ slash :: m) = kept p.
Proof.
  intros N H. unfold kept. assert (R : rooted (p ++ slash :: m) = rooted p) by (destruct p; [congruence|reflexivity]). rewrite R, parts_app, fold_left_app. apply H.
Qed.
Lemma base_same p q : kept p = kept q -> rooted p = rooted q -> base (clean_path p) = base (clean_path q).
Proof. intros K R. now rewrite !base_clean, K, R. Qed.

(** ** URLs *)
Lemma split_slash_at a b : ~ In slash a -> (b = [] \/ exists b', b = slash :: b') -> split_slash (a ++ b) = (a, b).
Proof.
  intros N H. induction a as [|c a IH].
  - cbn [app]. destruct H as [->|(b' & ->)]; reflexivity.
  - cbn [app split_slash]. destruct (Byte.eqb c slash) eqn:E; [apply byte_eqb_eq in E; destruct N; now left|]. rewrite IH; [reflexivity|]. intros I. apply N. now right.
Qed.
Definition name_char (c : byte) : bool := alnum c || among "-.~!$&'()*+,;=" c.
Lemma host_id h : forallb (fun c => name_char c || Byte.eqb c x3a) h = true -> host_unescape h = Some h /\ url_escape host_char h = h.
Proof.
  induction h as [|c h IH]; [split; reflexivity|]. cbn [forallb]. intros H. apply andb_prop in H as [Hc Hh]. destruct (IH Hh) as [U X].
  assert (C : Byte.eqb c x25 = false /\ ((Byte.to_N c <? 128)%N && negb (host_char c)) = false /\ host_char c = true) by (clear - Hc; destruct c; try discriminate Hc; repeat split; reflexivity).
  destruct C as (C1 & C2 & C3). split.
  - cbn [host_unescape]. rewrite C1, C2, U. reflexivity.
  - cbn [url_escape flat_map]. unfold url_escape in X. rewrite C3, X. reflexivity.
Qed.
Lemma authority_plain h port : forallb name_char h = true -> port = [] \/ (exists d, port = x3a :: d /\ forallb (within 48 57) d = true) ->
  parse_authority (h ++ port) = Host (h ++ port) /\ url_escape host_char (h ++ port) = h ++ port.
Proof.
  intros Hh Hp. rewrite forallb_forall in Hh.
  assert (A : forallb (fun c => name_char c || Byte.eqb c x3a) (h ++ port) = true).
  { apply forallb_forall. intros c I. apply in_app_or in I as [I|I]; [now rewrite (Hh c I)|]. destruct Hp as [->|(d & -> & D)]; [destruct I|].
    destruct I as [<-|I]; [reflexivity|]. rewrite forallb_forall in D. apply D in I. unfold name_char, alnum. rewrite I. reflexivity. }
  destruct (host_id _ A) as [U X]. split; [|exact X]. unfold parse_authority. rewrite U. rewrite forallb_forall in A.
  rewrite occurs_not by (intros I; apply A in I; discriminate I).
  assert (B : starts [x5b] (h ++ port) = false).
  { destruct (h ++ port) as [|c s]; [reflexivity|]. unfold starts. cbn [length firstn]. apply beqb_false. intros [= ->]. specialize (A x5b (or_introl eq_refl)). discriminate A. }
  rewrite B. cbn [orb]. assert (Nh : ~ In x3a h) by (intros I; apply Hh in I; discriminate I).
  destruct Hp as [->|(d & -> & D)].
  - rewrite app_nil_r. rewrite split_last_none by exact Nh. reflexivity.
  - rewrite split_last_at; [now rewrite D|]. intros I. rewrite forallb_forall in D. apply D in I. discriminate I.
Qed.
(** The URLs that the text is kept of. *)
Definition plain_url (u : bytes) : Prop := exists scheme host port path, u = scheme ++ x3a :: slash :: slash :: host ++ port ++ path /\
  (exists c r, scheme = c :: r /\ within 97 122 c = true /\ forallb (fun d => within 97 122 d || within 48 57 d || among "+-." d) r = true) /\
  host <> [] /\ forallb name_char host = true /\ (port = [] \/ exists d, port = x3a :: d /\ forallb (within 48 57) d = true) /\
  (path = [] \/ exists p, path = slash :: p) /\ forallb path_safe path = true.
Lemma lower_id s : forallb (fun d => within 97 122 d || within 48 57 d || among "+-." d) s = true -> map lower_byte s = s.
Proof.
  induction s as [|c s IH]; [reflexivity|]. cbn [forallb map]. intros H. apply andb_prop in H as [Hc Hs]. rewrite IH by exact Hs. f_equal. destruct c; try discriminate Hc; reflexivity.
Qed.
Lemma plain_canonical u : plain_url u -> canonical u = Url u.
Proof.
  intros (scheme & host & port & path & -> & (c & r & -> & Hc & Hr) & Nh & Hh & Hp & Pp & Hs).
  destruct (authority_plain host port Hh Hp) as [A X].
  assert (Sl : scheme_like (c :: r)).
  { exists c, r. split; [reflexivity|]. split; [rewrite Hc; apply orb_true_r|]. rewrite forallb_forall in Hr. apply Forall_forall. intros d I. apply Hr in I. clear - I. destruct d; try discriminate I; reflexivity. }
  assert (Cl : clean ((c :: r) ++ x3a :: slash :: slash :: (host ++ port) ++ path)).
  { assert (Q : forall b, (path_safe b || name_char b || Byte.eqb b x3a) = true -> (32 <= Byte.to_N b)%N /\ b <> x7f /\ b <> x23 /\ b <> x3f).
    { intros b. destruct b; try discriminate; intros _; (split; [cbn; lia|]); repeat split; discriminate. }
    intros b I. apply Q. rewrite !in_app_iff in I. cbn [In] in I. rewrite !in_app_iff in I. rewrite forallb_forall in Hr, Hh, Hs.
    destruct I as [[<-|I]|[<-|[<-|[<-|[[I|I]|I]]]]]; try reflexivity.
    - clear - Hc. destruct c; try discriminate Hc; reflexivity.
    - apply Hr in I. clear - I. destruct b; try discriminate I; reflexivity.
    - apply Hh in I. rewrite I, orb_true_r. reflexivity.
    - destruct Hp as [->|(d & -> & D)]; [destruct I|]. destruct I as [<-|I]; [reflexivity|]. rewrite forallb_forall in D. apply D in I. clear - I. destruct b; try discriminate I; reflexivity.
    - apply Hs in I. now rewrite I. }
  rewrite app_assoc. unfold canonical. rewrite cut_none by now apply clean_hash. rewrite clean_control by exact Cl. rewrite scheme_found by exact Sl.
  rewrite split_first_none by (apply clean_app in Cl as [_ Cl]; apply clean_cons in Cl as [_ Cl]; now apply clean_mark).
  change (starts [slash; slash] (slash :: slash :: (host ++ port) ++ path)) with true. cbn [negb skipn].
  rewrite split_slash_at; [|intros I; apply in_app_or in I as [I|I]|exact Pp].
  2: { rewrite forallb_forall in Hh. apply Hh in I. discriminate I. }
  2: { destruct Hp as [->|(d & -> & D)]; [destruct I|]. destruct I as [I|I]; [discriminate I|]. rewrite forallb_forall in D. apply D in I. discriminate I. }
  rewrite A. destruct (host ++ port) as [|h0 hs] eqn:E; [destruct host; [congruence|discriminate E]|].
  destruct (path_kept path Hs) as (raw & D & K). rewrite D. change (beqb [] []) with true. cbv iota beta. rewrite K, X. cbn [orb negb].
  rewrite (lower_id (c :: r)) by (cbn [forallb]; rewrite Hc, Hr; reflexivity). rewrite !app_nil_r. reflexivity.
Qed.
(** A derived URL has a scheme and a host. *)
Lemma canonical_shape s u : canonical s = Url u -> exists scheme rest, scheme <> [] /\ rest <> [] /\ u = scheme ++ x3a :: slash :: slash :: rest.
Proof.
  unfold canonical. destruct (cut x23 s) as [s' frag]. destruct (existsb control s'); [discriminate|]. destruct (get_scheme s') as [[[|c r] rest]|]; try discriminate.
  destruct (match split_first x3f rest with Some (a, b) => (a, b, beqb b []) | None => (rest, [], false) end) as [[rest' query] force].
  destruct (negb (starts [slash; slash] rest')); [discriminate|]. destruct (split_slash (skipn 2 rest')) as [auth path].
  destruct (parse_authority auth) as [[|h hs]| |]; try discriminate. destruct (decoded path_char path) as [[d raw]|]; [|discriminate].
  destruct (if beqb frag [] then Some ([], []) else decoded frag_char frag) as [[f raw_f]|]; [|discriminate].
  injection 1 as <-. exists (map lower_byte (c :: r)), (url_escape host_char (h :: hs) ++ encoded path_char d raw ++ (if force || negb (beqb query []) then x3f :: query else []) ++
                          (if beqb f [] then [] else x23 :: encoded frag_char f raw_f)).
  split; [discriminate|]. split; [|reflexivity]. cbn [url_escape flat_map]. destruct (host_char h); discriminate.
Qed.
(** The name of the directory for a URL *)
Definition fold_name (u : bytes) : bytes := map (fun c => if Byte.eqb c slash then x5f else c) u.
Lemma unfold_fold u : ~ In x5f u -> unfold_name (fold_name u) = u.
Proof.
  induction u as [|c u IH]; [reflexivity|]. intros N. cbn [fold_name unfold_name map]. unfold fold_name, unfold_name in IH. rewrite IH by (intros I; apply N; now right). f_equal.
  destruct (Byte.eqb c slash) eqn:E; [apply byte_eqb_eq in E; now subst|]. destruct (Byte.eqb c x5f) eqn:E'; [|reflexivity]. apply byte_eqb_eq in E'. destruct N. now left.
Qed.
Lemma fold_free u : ~ In slash (fold_name u).
Proof. unfold fold_name. rewrite in_map_iff. intros (c & E & _). destruct (Byte.eqb c slash) eqn:E'; [discriminate E|]. subst c. discriminate E'. Qed.

(** ** The table *)
Section Table.
  Variable hash : bytes -> bytes.
  (** The URL and the state that an event writes *)
  Definition written (e : event) : option (bytes * status) :=
    match e with
    | Ingested dir size => match derive dir with Url u => Some (u, (size, None)) | _ => None end
    | Served u size sth => Some (u, (size, sth))
    end.
  Lemma step_written t e : event_step hash t e = match written e with Some (u, v) => update_state hash u v t | None => t end.
  Proof. destruct e as [dir size|u size sth]; cbn [event_step written]; [destruct (derive dir)|]; reflexivity. Qed.
  Lemma last_same u v t : last_state hash u (update_state hash u v t) = v.
  Proof. unfold last_state, update_state. cbn [find fst]. now rewrite beqb_refl. Qed.
  Lemma last_other u w v t : hash u <> hash w -> last_state hash u (update_state hash w v t) = last_state hash u t.
  Proof.
    intros N. unfold last_state, update_state. cbn [find fst]. rewrite beqb_false by congruence.
    assert (G : find (fun e => beqb (fst e) (hash u)) (filter (fun e : bytes * status => negb (beqb (fst e) (hash w))) t) = find (fun e => beqb (fst e) (hash u)) t); [|now rewrite G].
    induction t as [|e t IH]; [reflexivity|]. cbn [filter find]. destruct (beqb (fst e) (hash w)) eqn:E; cbn [negb find].
    - rewrite IH. rewrite beqb_false; [reflexivity|]. apply beqb_eq in E. congruence.
    - now rewrite IH.
  Qed.
  Lemma last_kept u l : forall t, (forall e w v, In e l -> written e = Some (w, v) -> hash u <> hash w) -> last_state hash u (fold_left (event_step hash) l t) = last_state hash u t.
  Proof.
    induction l as [|e l IH]; intros t H; [reflexivity|]. cbn [fold_left]. rewrite IH by (intros e' w v I; apply H; now right). rewrite step_written.
    destruct (written e) as [[w v]|] eqn:E; [|reflexivity]. apply last_other. apply (H e w v); [now left|exact E].
  Qed.
  Lemma last_write u v l1 e l2 : written e = Some (u, v) -> (forall e' w v', In e' l2 -> written e' = Some (w, v') -> hash u <> hash w) ->
    last_state hash u (after hash (l1 ++ e :: l2)) = v.
  Proof.
    intros E H. unfold after. rewrite fold_left_app. cbn [fold_left]. rewrite last_kept by exact H. rewrite step_written, E. apply last_same.
  Qed.
  Lemma last_never u l : (forall e w v, In e l -> written e = Some (w, v) -> hash u <> hash w) -> last_state hash u (after hash l) = (0%Z, None).
  Proof. intros H. unfold after. rewrite last_kept by exact H. reflexivity. Qed.
End Table.
