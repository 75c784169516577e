(** The connection to the database: C88. *)
From Coq Require Import Strings.String Permutation.
From Verif Require Import Base BaseLemmas UtilModel DbModel JsonText JsonModel ConfModel ConfProofs DsnModel DsnProofs.
Local Open Scope list_scope.
Local Notation b_ s := (list_byte_of_string s%string).

(** Full statement: for every configuration without a DSN, the driver is asked for the configured user, password, server (or socket) and database, with
    every other value as a parameter. False; proved under conditions on the characters. [reach]: what the driver reads from the text given to sql.Open.
    [clean]: no control character, # or ?. [scheme_like]: a letter, then letters, digits, +, - and the dot. [path_safe]: letters, digits, -_.~$&+,/:;=@!'()*[].
    [params_of values ps]: the parameters ps are, up to the order, the values, each query-escaped (and the same if it has only letters, digits, -_.~). *)
Theorem C88_password_partial c (v := fun k => val k (d_values c)) :
  d_dsn c = [] -> look key_socket (d_values c) = None -> scheme_like (v key_user) -> Forall (fun x => ~ (65 <= Byte.to_N x <= 90)%N) (v key_user) ->
  no_slash_first (v key_password) -> Forall (fun k => clean (v k)) [key_user; key_password; key_host; key_port; key_db] ->
  ~ In x40 (v key_host) -> ~ In x40 (v key_port) -> ~ In x2f (v key_db) -> ~ In x25 (v key_db) ->
  exists ps, params_of (others (d_values c)) ps /\
    reach c = Some (mk_target (v key_user) (v key_password) (b_ "tcp") (v key_host ++ match v key_port with [] => [] | p => x3a :: p end) (v key_db) ps).
Proof.
  intros D So Su Lo Pw C H P N M. destruct (reach_password c D So Su Pw C H P N M) as (ps & Ps & R). exists ps. split; [exact Ps|]. rewrite R. f_equal.
  assert (E : map lower_byte (v key_user) = v key_user).
  { revert Lo. generalize (v key_user) as u. intros u Lo. induction Lo as [|x u Hx Lo IH]; [reflexivity|]. cbn [map]. rewrite IH. f_equal. unfold lower_byte.
    destruct (within 65 90 x) eqn:W; [|reflexivity]. exfalso. apply Hx. unfold within in W. apply andb_prop in W as [W1 W2]. apply N.leb_le in W1, W2. lia. }
  unfold v in E. rewrite E. unfold address. fold (v key_host) (v key_port). f_equal. destruct (v key_port); [now rewrite app_nil_r|reflexivity].
Qed.
(** Without a password and a port *)
Theorem C88_no_password_partial c (v := fun k => val k (d_values c)) :
  d_dsn c = [] -> look key_socket (d_values c) = None -> v key_password = [] -> v key_port = [] ->
  Forall (fun k => forallb path_safe (v k) = true) [key_user; key_host; key_db] ->
  ~ In x3a (v key_user) -> ~ In x2f (v key_user) -> ~ In x3a (v key_host) -> ~ In x40 (v key_host) -> ~ In x2f (v key_db) ->
  exists ps, params_of (others (d_values c)) ps /\ reach c = Some (mk_target (v key_user) [] (b_ "tcp") (v key_host) (v key_db) ps).
Proof.
  intros D So Pw Po F N1 N2 N3 N4 N5. inversion F as [|? ? F1 F']. inversion F' as [|? ? F2 F'']. inversion F'' as [|? ? F3 _]. subst. clear F F' F''.
  apply reach_plain; auto.
  - unfold dsn_text. rewrite So. unfold v in Pw, Po. rewrite Pw, Po. reflexivity.
  - now left.
  - destruct (v key_user); [cbn; discriminate|]. cbn. intros ->. apply N2. now left.
  - intros I. apply N3. clear - I. revert I. generalize (v key_host) as h. intros h. unfold cut. induction h as [|x h IH]; [cbn; auto|]. cbn [app split_first].
    destruct (Byte.eqb x x2f); [intros []|]. destruct (split_first x2f (h ++ [x2f])) as [[a b]|]; cbn [fst] in *; (intros [I|I]; [now left|right]); [now apply IH|].
    rewrite in_app_iff in I. destruct I as [I|[I|[]]]; [exact I|discriminate].
Qed.
Example C88_no_password_example : option_map (fun t => (t_user t, t_addr t, length (t_params t))) (reach (new_config [with_defaults; with_environment (fun _ => None)])) =
  Some (b_ "root", b_ "127.0.0.1", 6).
Proof. vm_compute. reflexivity. Qed.
(** With a local socket; the password, the server and the port are ignored. *)
Theorem C88_socket_partial c path (v := fun k => val k (d_values c)) :
  d_dsn c = [] -> look key_socket (d_values c) = Some (x2f :: path) -> forallb path_safe path = true -> ~ In x40 path ->
  Forall (fun k => forallb path_safe (v k) = true) [key_user; key_db] -> ~ In x3a (v key_user) -> ~ In x2f (v key_user) -> ~ In x2f (v key_db) ->
  exists ps, params_of (others (d_values c)) ps /\ reach c = Some (mk_target (v key_user) [] (b_ "unix") (x2f :: path) (v key_db) ps).
Proof.
  intros D So Fp Np F N1 N2 N3. inversion F as [|? ? F1 F']. inversion F' as [|? ? F2 _]. subst. clear F F'.
  apply reach_plain; auto.
  - unfold dsn_text. rewrite So. reflexivity.
  - right. now left.
  - intros [I|I]; [discriminate|now apply Np].
  - destruct (v key_user); [cbn; discriminate|]. cbn. intros ->. apply N2. now left.
Qed.
(** As the ingest command connects: any environment *)
Theorem C88_ingest env name (user := match env (b_ "MYSQL_USER") with Some u => u | None => b_ "root" end) :
  forallb path_safe name = true -> ~ In x2f name -> forallb path_safe user = true -> ~ In x3a user -> ~ In x2f user ->
  reach (new_config [with_db name; with_defaults; with_environment env; with_socket (b_ "/var/run/mysqld/mysqld.sock")]) =
  Some (mk_target user [] (b_ "unix") (b_ "/var/run/mysqld/mysqld.sock") name
    [(b_ "autocommit", b_ "true"); (b_ "collation", b_ "binary"); (b_ "interpolateParams", b_ "true"); (b_ "maxAllowedPacket", b_ "1073741824");
     (b_ "parseTime", b_ "true"); (b_ "transaction_isolation", b_ "%27READ-UNCOMMITTED%27")]).
Proof. exact (ingest_target env name). Qed.
Example C88_example :
  reach (new_config [with_defaults; set_pairs [(key_user, b_ "fpki-1"); (key_password, b_ "p/w:@(%&"); (key_host, b_ "db.example.org"); (key_port, b_ "3307")]; with_db (b_ "maps")]) =
  Some (mk_target (b_ "fpki-1") (b_ "p/w:@(%&") (b_ "tcp") (b_ "db.example.org:3307") (b_ "maps")
    [(b_ "autocommit", b_ "true"); (b_ "collation", b_ "binary"); (b_ "interpolateParams", b_ "true"); (b_ "maxAllowedPacket", b_ "1073741824");
     (b_ "parseTime", b_ "true"); (b_ "transaction_isolation", b_ "%27READ-UNCOMMITTED%27")]).
Proof. vm_compute. reflexivity. Qed.
(** Connect changes the configuration; connecting again with it opens the same. The order of the map does not matter. *)
Theorem C88_again c : reach (settle c) = reach c /\ connect (settle (settle c)) = connect (settle c).
Proof. unfold reach. now rewrite settle_again. Qed.
Theorem C88_order dsn name check l l' : NoDup (map fst l) -> Permutation l l' ->
  connect (settle (mk_db dsn name (Some l) check)) = connect (settle (mk_db dsn name (Some l') check)).
Proof. exact (connect_perm dsn name check l l'). Qed.
(** Refuted. A port without a password is refused: the text is taken for a URL, whose first segment must not have a colon. *)
Theorem C88_port_refused c (v := fun k => val k (d_values c)) :
  d_dsn c = [] -> look key_socket (d_values c) = None -> v key_password = [] -> v key_port <> [] ->
  Forall (fun k => clean (v k)) [key_user; key_host; key_port; key_db] -> ~ In x3a (v key_user) -> ~ In x2f (v key_user) -> ~ In x2f (v key_host) ->
  connect (settle c) = BadString.
Proof. exact (port_refused c). Qed.
(** A user whose name is no scheme of a URL, as with an underscore, cannot have a password. *)
Theorem C88_user_refused c (v := fun k => val k (d_values c)) :
  d_dsn c = [] -> look key_socket (d_values c) = None -> v key_password <> [] -> ~ scheme_like (v key_user) ->
  Forall (fun k => clean (v k)) [key_user; key_password; key_host; key_port; key_db] -> ~ In x3a (v key_user) -> ~ In x2f (v key_user) ->
  connect (settle c) = BadString.
Proof. exact (user_refused c). Qed.
Theorem C88_opens_refuted :
  (exists c, val key_port (d_values c) = b_ "3306" /\ val key_user (d_values c) = b_ "root" /\ val key_host (d_values c) = b_ "127.0.0.1" /\ connect (settle c) = BadString) /\
  (exists c, val key_user (d_values c) = b_ "fpki_user" /\ val key_password (d_values c) = b_ "secret" /\ connect (settle c) = BadString).
Proof.
  split.
  - exists (new_config [with_defaults; set_pairs [(key_port, b_ "3306")]]). repeat split; vm_compute; reflexivity.
  - exists (new_config [with_defaults; set_pairs [(key_user, b_ "fpki_user"); (key_password, b_ "secret")]]). repeat split; vm_compute; reflexivity.
Qed.
(** With a password, the user is changed to lower case. After a # in the password the parameters become part of the password. A password with ? is refused
    by the driver. With a socket the password is not used. Without values, the user and the database are empty. *)
Theorem C88_target_refuted :
  (exists t, reach (new_config [with_user (b_ "Admin"); set_pairs [(key_password, b_ "secret"); (key_host, b_ "h")]]) = Some t /\ t_user t = b_ "admin") /\
  (exists t, reach (new_config [with_user (b_ "root"); set_pairs [(key_password, b_ "a#b"); (key_host, b_ "h"); (b_ "parseTime", b_ "true")]]) = Some t /\
     t_user t = b_ "root" /\ t_password t = b_ "a?parseTime=true#b" /\ t_addr t = b_ "h" /\ t_params t = []) /\
  reach (new_config [with_user (b_ "root"); set_pairs [(key_password, b_ "a?b"); (key_host, b_ "h")]]) = None /\
  (exists t, reach (new_config [with_user (b_ "root"); set_pairs [(key_password, b_ "secret")]; with_socket (b_ "/s")]) = Some t /\ t_password t = [] /\ t_addr t = b_ "/s") /\
  reach (mk_db [] [] None false) = Some (mk_target [] [] (b_ "tcp") [] [] []).
Proof.
  split; [exists (mk_target (b_ "admin") (b_ "secret") (b_ "tcp") (b_ "h") (b_ "fpki") []); split; vm_compute; reflexivity|].
  split; [exists (mk_target (b_ "root") (b_ "a?parseTime=true#b") (b_ "tcp") (b_ "h") (b_ "fpki") []); repeat split; vm_compute; reflexivity|].
  split; [vm_compute; reflexivity|].
  split; [exists (mk_target (b_ "root") [] (b_ "unix") (b_ "/s") (b_ "fpki") []); repeat split; vm_compute; reflexivity|].
  vm_compute. reflexivity.
Qed.
Print Assumptions C88_password_partial.
Print Assumptions C88_no_password_partial.
Print Assumptions C88_socket_partial.
Print Assumptions C88_ingest.
Print Assumptions C88_again.
Print Assumptions C88_order.
Print Assumptions C88_port_refused.
Print Assumptions C88_user_refused.
Print Assumptions C88_opens_refuted.
Print Assumptions C88_target_refuted.
