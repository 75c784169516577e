(** Properties C17, C18, C22, C23, C24, C25: the certificate tables. Statements, proofs by reference, examples. *)
From Coq Require Import Sorted.
From Verif Require Import Base BaseLemmas UtilModel DbModel DbTables DbIngest DbPrune DbCoalesce.

(** ** C17: existence check. The full statement has no condition on the number of ids. *)
Theorem C17_exact_partial t ids : length ids mod 1000 <> 0 \/ ids = [] ->
  length (check_certs_exist t batch_size ids) = length ids /\
  forall i x, nth_error ids i = Some x -> exists v, nth_error (check_certs_exist t batch_size ids) i = Some v /\ (v = true <-> In x (map cr_id t)).
Proof. exact (check_exact t 1000 ids batch_pos). Qed.
(** One answer per id, and a positive answer is always right. *)
Theorem C17_sound t ids : length (check_certs_exist t batch_size ids) = length ids /\
  forall i x, nth_error ids i = Some x -> nth_error (check_certs_exist t batch_size ids) i = Some true -> In x (map cr_id t).
Proof. exact (conj (check_length t 1000 ids batch_pos) (fun i x => check_sound t 1000 ids i x batch_pos)). Qed.
(** With a positive multiple of 1000 ids the last 1000 are reported missing, whatever the table holds. *)
Theorem C17_last_batch_refuted t ids k i : length ids = 1000 * S k -> 1000 * k <= i < length ids ->
  nth_error (check_certs_exist t batch_size ids) i = Some false.
Proof. exact (check_misses t 1000 ids k i batch_pos). Qed.
Definition row (i p : byte) (e : Z) : cert_row := mk_cr [i] (if Byte.eqb p x00 then [] else [p]) e [i; p].
Theorem C17_refuted : exists t ids, (forall x, In x ids -> In x (map cr_id t)) /\ ids <> [] /\ forall i, i < length ids -> nth_error (check_certs_exist t batch_size ids) i = Some false.
Proof.
  exists [row x01 x00 5], (repeat [x01] 1000). split; [|split].
  - intros x Hx. apply repeat_spec in Hx. left. symmetry. exact Hx.
  - discriminate.
  - intros i Hi. apply C17_last_batch_refuted with 0; rewrite repeat_length in *; [reflexivity | lia].
Qed.
Example C17_example : check_certs_exist [row x01 x00 5; row x03 x01 5] batch_size [[x03]; [x02]; [x01]; [x03]] = [true; false; true; true].
Proof. vm_compute. reflexivity. Qed.

(** ** C24: compaction by a mask *)
Theorem C24_keeps {A} (dflt : A) mask (l : list A) : length l = length mask ->
  let r := run_when_false mask (move dflt) l in
  firstn (snd r) (fst r) = map snd (filter (fun p => negb (fst p)) (combine mask l)) /\
  snd r = length (filter (fun p => negb (fst p)) (combine mask l)) /\ length (fst r) = length l.
Proof.
  intros Hl r. destruct (rwf_move dflt mask l Hl) as (E1 & E2 & E3). unfold kept in *. rewrite map_length in E2. auto.
Qed.
(** The calls, for any function: one per false entry, in order, the k-th with target k. *)
Theorem C24_calls {St} mask (f : nat -> nat -> St -> St) s :
  exists from, (forall i, In i from <-> nth_error mask i = Some false) /\ StronglySorted lt from /\
  run_when_false mask f s = (fold_left (fun s p => f (fst p) (snd p) s) (combine (seq 0 (length from)) from) s, length from).
Proof.
  exists (falses mask 0). split; [|split].
  - intros i. rewrite falses_in, Nat.sub_0_r. split; [tauto | intros; split; [lia | assumption]].
  - apply falses_sorted.
  - apply rwf_calls.
Qed.
(** Parallel slices stay aligned. *)
Theorem C24_pairs {A B} (da : A) (db_ : B) mask a b : length a = length mask -> length b = length mask ->
  let ra := run_when_false mask (move da) a in let rb := run_when_false mask (move db_) b in
  combine (firstn (snd ra) (fst ra)) (firstn (snd rb) (fst rb)) = map snd (filter (fun p => negb (fst p)) (combine mask (combine a b))).
Proof.
  intros Ha Hb ra rb. destruct (rwf_move da mask a Ha) as (E1 & _ & _). destruct (rwf_move db_ mask b Hb) as (E2 & _ & _).
  unfold ra, rb. rewrite E1, E2. symmetry. exact (kept_combine mask a b Ha Hb).
Qed.
Example C24_example : run_when_false [true; false; false; true; false] (move 0) [10; 11; 12; 13; 14] = ([11; 12; 14; 13; 14], 3).
Proof. reflexivity. Qed.

(** ** C23: what UpdateWithKeepExisting stores. The full statement has the certificate's own expiration. *)
Theorem C23_stored H d names ids parents certs exps pols s : aligned names ids parents certs exps -> NoDup ids ->
  keep_existing H d names ids parents certs exps pols = Ok s ->
  let d' := run s d in
  (forall r, In r (d_certs d) -> In r (d_certs d')) /\
  (forall r, In r (d_certs d') -> In r (d_certs d) \/
     exists i, nth_error ids i = Some (cr_id r) /\ nth_error parents i = Some (cr_parent r) /\ nth_error certs i = Some (cr_payload r) /\ In (cr_exp r) exps) /\
  (forall i id p y, nth_error ids i = Some id -> nth_error parents i = Some p -> nth_error certs i = Some y -> ~ In id (map cr_id (d_certs d)) ->
     exists e, In (mk_cr id p e y) (d_certs d') /\ forall ns n, nth_error names i = Some ns -> In n ns -> In (H n, id) (d_dc d')).
Proof.
  intros Ha Hn E d'. destruct (keep_stored H names ids parents certs exps pols Ha d s E Hn) as (K1 & K2 & K3). split; [exact K1|]. split.
  - intros r Hr. destruct (K2 r Hr) as [|(i & _ & A1 & A2 & A3 & A4)]; [left; assumption | right]. exists i. repeat split; try assumption. eapply nth_error_In. exact A4.
  - intros i id p y A1 A2 A3 A4. destruct (K3 i id p y A1 A2 A3 A4) as (e & _ & B1 & B2). eauto.
Qed.
Theorem C23_expiration_partial H d names ids parents certs exps pols s i id p y e : aligned names ids parents certs exps -> NoDup ids ->
  keep_existing H d names ids parents certs exps pols = Ok s ->
  (forall j x, j <= i -> nth_error ids j = Some x -> ~ In x (map cr_id (d_certs d))) ->
  nth_error ids i = Some id -> nth_error parents i = Some p -> nth_error certs i = Some y -> nth_error exps i = Some e ->
  In (mk_cr id p e y) (d_certs (run s d)).
Proof. intros Ha Hn E. exact (keep_own_expiration H names ids parents certs exps pols Ha d s i id p y e E Hn). Qed.
Theorem C23_returns H d names ids parents certs exps pols : aligned names ids parents certs exps -> exists s, keep_existing H d names ids parents certs exps pols = Ok s.
Proof. exact (keep_existing_total H d names ids parents certs exps pols). Qed.
Definition tag (b : bytes) : bytes := b ++ [x99].
Definition db_a : db := set_certs [row x01 x00 100] empty_db.
Definition names_a : list (list bytes) := [[]; [[x61]; [x62]]].
Definition run_keep d names ids parents certs exps pols : option db :=
  match keep_existing tag d names ids parents certs exps pols with Ok s => Some (run s d) | _ => None end.
Theorem C23_refuted : exists d names ids parents certs exps s r, aligned names ids parents certs exps /\ NoDup ids /\
  keep_existing tag d names ids parents certs exps [] = Ok s /\
  nth_error ids 1 = Some (cr_id r) /\ nth_error exps 1 = Some 200%Z /\ In r (d_certs (run s d)) /\ cr_exp r <> 200%Z.
Proof.
  exists db_a, names_a, [[x01]; [x02]], [[]; [x01]], [[x01; x00]; [x02; x01]], [100; 200]%Z. eexists. exists (mk_cr [x02] [x01] 100 [x02; x01]).
  split; [repeat split|]. split; [repeat constructor; cbn; intuition discriminate|]. split; [reflexivity|]. split; [reflexivity|]. split; [reflexivity|].
  split; [vm_compute; right; left; reflexivity | discriminate].
Qed.
Example C23_example : option_map (fun d => (d_certs d, d_dc d, d_domains d, d_dirty d))
    (run_keep empty_db names_a [[x01]; [x02]] [[]; [x01]] [[x01; x00]; [x02; x01]] [100; 200]%Z []) =
  Some ([mk_cr [x01] [] 100 [x01; x00]; mk_cr [x02] [x01] 200 [x02; x01]], [([x61; x99], [x02]); ([x62; x99], [x02])],
        [([x61; x99], [x61]); ([x62; x99], [x62])], [([x61; x99], false); ([x62; x99], false)]).
Proof. vm_compute. reflexivity. Qed.

(** ** C22: ingestion with crashes *)
(** UpdateWithOverwrite: after any number of interrupted attempts, one complete attempt puts everything in place. *)
Theorem C22_overwrite H names ids parents certs exps pols s :
  overwrite H names ids parents certs exps pols = Ok s ->
  forall crashes d, let d' := run s (fold_left (fun d k => run (firstn k s) d) crashes d) in
  (forall k id, nth_error ids k = Some id -> In id (map cr_id (d_certs d')) /\
     forall ns n, nth_error names k = Some ns -> In n ns -> In (H n, id) (d_dc d') /\ In (H n) (map fst (d_domains d')) /\ In (H n, false) (d_dirty d')) /\
  (forall dom y, In (dom, y) pols -> In (H y) (map cr_id (d_pols d')) /\ In (H dom, H y) (d_dp d') /\ In (H dom) (map fst (d_domains d')) /\ In (H dom, false) (d_dirty d')) /\
  (incl (map cr_id (d_certs d)) (map cr_id (d_certs d')) /\ incl (d_dc d) (d_dc d') /\ forall x, In (x, false) (d_dirty d) -> In (x, false) (d_dirty d')).
Proof.
  intros E crashes d d'. destruct (overwrite_done H names ids parents certs exps pols s E crashes d) as (C & P & (L1 & _ & L3 & _ & L5 & _)). split; [|split].
  - intros k id Hk. destruct (C k id Hk) as (C1 & C2 & C3). split; [exact C1|]. intros ns n Hns Hn. destruct (C2 ns n Hns Hn). split; [assumption|]. split; [assumption|]. exact (C3 ns n Hns Hn).
  - exact P.
  - split; [exact L1|]. split; [exact L5 | exact L3].
Qed.
(** UpdateWithKeepExisting, the variant in use: a crash outside the four certificate statements is repaired by the next attempt. *)
Theorem C22_keep_partial H names ids parents certs exps pols d s s' k : aligned names ids parents certs exps ->
  keep_existing H d names ids parents certs exps pols = Ok s ->
  (forall k id, nth_error ids k = Some id -> In id (map cr_id (d_certs d)) ->
     forall ns n, nth_error names k = Some ns -> In n ns -> In (H n, id) (d_dc d) /\ In (H n) (map fst (d_domains d))) ->
  k = 0 \/ 4 <= k ->
  keep_existing H (run (firstn k s) d) names ids parents certs exps pols = Ok s' ->
  let d' := run s' (run (firstn k s) d) in
  forall i id, nth_error ids i = Some id -> In id (map cr_id (d_certs d')) /\
    forall ns n, nth_error names i = Some ns -> In n ns -> In (H n, id) (d_dc d') /\ In (H n) (map fst (d_domains d')) /\
    (~ In id (map cr_id (d_certs d)) -> In (H n, false) (d_dirty d')).
Proof.
  intros Ha E Hold Hk E' d' i id Hi. destruct (keep_crash_partial H names ids parents certs exps pols Ha d s s' k E Hold Hk E') as (_ & K).
  destruct (K i id Hi) as (K1 & K2 & K3). split; [exact K1|]. intros ns n Hns Hn. destruct (K2 ns n Hns Hn). split; [assumption|]. split; [assumption|].
  intros Hnew. exact (K3 Hnew ns n Hns Hn).
Qed.
(** A crash after the first statement is never repaired: however often the same certificates are ingested again, they are in the table and no domain
    is associated with them. *)
Theorem C22_keep_lost_refuted H names ids parents certs exps pols d s d' : aligned names ids parents certs exps ->
  length ids mod 1000 <> 0 -> ids <> [] -> keep_existing H d names ids parents certs exps pols = Ok s ->
  (forall id, In id ids -> ~ In id (map cr_id (d_certs d))) ->
  ingests H names ids parents certs exps pols (run (firstn 1 s) d) d' ->
  incl ids (map cr_id (d_certs d')) /\ d_dc d' = d_dc d.
Proof. intros Ha. exact (keep_crash_loses H names ids parents certs exps pols Ha d s d'). Qed.
Theorem C22_refuted : exists names ids parents certs exps s s', aligned names ids parents certs exps /\
  keep_existing tag empty_db names ids parents certs exps [] = Ok s /\
  keep_existing tag (run (firstn 1 s) empty_db) names ids parents certs exps [] = Ok s' /\
  In [x61] (nth 1 names []) /\ nth_error ids 1 = Some [x02] /\ ~ In (tag [x61], [x02]) (d_dc (run s' (run (firstn 1 s) empty_db))).
Proof.
  exists names_a, [[x01]; [x02]], [[]; [x01]], [[x01; x00]; [x02; x01]], [100; 200]%Z. eexists. eexists.
  split; [repeat split|]. split; [reflexivity|]. split; [vm_compute; reflexivity|]. split; [left; reflexivity|]. split; [reflexivity|]. vm_compute. intros [].
Qed.
(** The same for a policy: a crash before the last statement leaves it without its domain for ever. *)
Theorem C22_policy_refuted : exists pols s s', 
  keep_existing tag empty_db [] [] [] [] [] pols = Ok s /\ keep_existing tag (run (firstn 3 s) empty_db) [] [] [] [] [] pols = Ok s' /\ pols <> [] /\
  d_dp (run s' (run (firstn 3 s) empty_db)) = [].
Proof. exists [([x61], [x62])]. eexists. eexists. split; [reflexivity|]. split; [vm_compute; reflexivity|]. split; [discriminate | reflexivity]. Qed.
Example C22_example : match overwrite tag names_a [[x01]; [x02]] [[]; [x01]] [[x01; x00]; [x02; x01]] [100; 200]%Z [([x61], [x77])] with
  | Ok s => let d := run s (run (firstn 3 s) (run (firstn 1 s) empty_db)) in (length s, length (d_certs d), length (d_dc d), length (d_dirty d), d_dp d)
  | _ => (0, 0, 0, 0, []) end = (8, 2, 2, 2, [([x61; x99], [x77; x99])]).
Proof. vm_compute. reflexivity. Qed.

(** ** C25: pruning *)
Theorem C25_exact max cut d d' : prune_expired max cut d = Ok d' ->
  (forall c, In c (d_certs d') <-> In c (d_certs d) /\ ~ doomed (d_certs d) cut (cr_id c)) /\
  (forall x, In (x, false) (d_dirty d') <-> In (x, false) (d_dirty d) \/ exists id, In (x, id) (d_dc d) /\ doomed (d_certs d) cut id) /\
  (forall x, In (x, true) (d_dirty d') <-> In (x, true) (d_dirty d) /\ ~ exists id, In (x, id) (d_dc d) /\ doomed (d_certs d) cut id) /\
  d_pols d' = d_pols d /\ d_domains d' = d_domains d /\ d_dc d' = d_dc d /\ d_dp d' = d_dp d /\ d_pay d' = d_pay d.
Proof. exact (prune_exact max cut d d'). Qed.
Theorem C25_crash max cut d s k d' : prune_stmts max cut d = Ok s -> prune_expired max cut (run (firstn k s) d) = Ok d' -> pruned cut d d'.
Proof. exact (prune_crash max cut d s k d'). Qed.
Theorem C25_returns max cut d : ranked (d_certs d) max -> exists d', prune_expired max cut d = Ok d'.
Proof. exact (prune_total max cut d). Qed.
(** With the time given in UTC and in whole seconds, "expired" means that NotAfter (in nanoseconds) is before now. *)
Theorem C25_time_partial max now d d' : (now mod 1000000000 = 0)%Z -> prune_certs max now 0 d = Ok d' ->
  (forall c, In c (d_certs d') -> In c (d_certs d) /\ (now <= cr_exp c * 1000000000)%Z) /\
  (forall c, In c (d_certs d) -> ~ In c (d_certs d') -> doomed (d_certs d) (now / 1000000000) (cr_id c)).
Proof.
  intros Hm E. unfold prune_certs in E. rewrite Z.add_0_r in E. destruct (C25_exact _ _ _ _ E) as (P & _). split.
  - intros c Hc. apply P in Hc. destruct Hc as [Hc Hd]. split; [exact Hc|]. destruct (Z_lt_le_dec (cr_exp c) (now / 1000000000)) as [Hl|Hl]; [exfalso; apply Hd; apply doomed_expired; assumption|].
    pose proof (Z.div_mod now 1000000000). lia.
  - intros c Hc Hn. assert (Hdec : doomed (d_certs d) (now / 1000000000) (cr_id c) \/ ~ doomed (d_certs d) (now / 1000000000) (cr_id c)).
    { unfold prune_expired, prune_stmts in E. destruct (descendants max (d_certs d) _) as [gone|] eqn:Eg; [|discriminate].
      destruct (has gone (cr_id c)) eqn:Eh; [left | right].
      - apply doomed_is_below. apply (descendants_ok _ _ _ _ Eg). apply has_in. exact Eh.
      - intros Hd. apply doomed_is_below in Hd. apply (descendants_ok _ _ _ _ Eg) in Hd. apply has_in in Hd. congruence. }
    destruct Hdec as [|Hnd]; [assumption|]. exfalso. apply Hn. apply P. auto.
Qed.
(** The wall clock of the local zone is compared with expirations in UTC: east of Greenwich a certificate goes before it expires. *)
Theorem C25_zone_refuted : exists now offset d d' c, prune_certs 10 now offset d = Ok d' /\ In c (d_certs d) /\ cr_parent c = [] /\
  (now < cr_exp c * 1000000000)%Z /\ ~ In c (d_certs d').
Proof.
  exists 1000000000000%Z, 3600%Z, (set_certs [row x01 x00 1500] empty_db). eexists. exists (row x01 x00 1500).
  split; [vm_compute; reflexivity|]. split; [left; reflexivity|]. split; [reflexivity|]. split; [reflexivity|]. vm_compute. intros [].
Qed.
(** The fraction of the second is dropped: a certificate that expired half a second ago stays. *)
Theorem C25_fraction_refuted : exists now d d' c, prune_certs 10 now 0 d = Ok d' /\ In c (d_certs d') /\ (cr_exp c * 1000000000 < now)%Z.
Proof.
  exists 1500500000000%Z, (set_certs [row x01 x00 1500] empty_db). eexists. exists (row x01 x00 1500).
  split; [vm_compute; reflexivity|]. split; [left; reflexivity | reflexivity].
Qed.
Definition db_p : db := mk_db [row x01 x00 100; row x02 x01 900; row x03 x02 900; row x04 x00 900] [] [([xaa], true); ([xbb], true)] [] [([xaa], [x03]); ([xbb], [x04])] [] [].
Example C25_example : (match prune_expired 10 500 db_p with Ok d => (d_certs d, d_dirty d) | _ => ([], []) end) = ([row x04 x00 900], [([xbb], true); ([xaa], false)]).
Proof. vm_compute. reflexivity. Qed.
Example C25_ranked : ranked (d_certs db_p) 3.
Proof.
  exists (fun i => if beqb i [x03] then 2 else if beqb i [x02] then 1 else 0). intros c Hc. cbn in Hc.
  repeat (destruct Hc as [<-|Hc]; [vm_compute; split; [lia | intros Hp; repeat (destruct Hp as [Hp|Hp]; [try discriminate; lia|]); destruct Hp]|]). destruct Hc.
Qed.

(** ** C18: coalescing *)
(** For every interleaving of the 32 workers and every number of restarts: when the call returns without error, the payload of every domain that
    was pending lists exactly its certificates and policies and those above them, sorted, with their hash; nothing else has changed. *)
Theorem C18_coalesced H max size d0 es s : 0 < size -> keyed d0 -> exec H max size (start d0) es = s -> returned s = true ->
  (forall x, In (x, false) (d_dirty d0) -> exists cs ps,
     column (d_certs d0) (d_dc d0) x cs /\ column (d_pols d0) (d_dp d0) x ps /\
     (forall r, In (x, r) (d_pay (fst s)) <-> (cs <> None \/ ps <> None) /\ r = mk_pr cs (option_map H cs) ps (option_map H ps)) /\
     (forall n, In (x, n) (d_domains (fst s)) <-> (cs <> None \/ ps <> None) /\ In (x, n) (d_domains d0)) /\
     (forall b, In (x, b) (d_dirty (fst s)) <-> b = true)) /\
  (forall x, ~ In (x, false) (d_dirty d0) ->
     (forall r, In (x, r) (d_pay (fst s)) <-> In (x, r) (d_pay d0)) /\ (forall n, In (x, n) (d_domains (fst s)) <-> In (x, n) (d_domains d0)) /\
     (forall b, In (x, b) (d_dirty (fst s)) <-> In (x, b) (d_dirty d0))) /\
  d_certs (fst s) = d_certs d0 /\ d_pols (fst s) = d_pols d0 /\ d_dc (fst s) = d_dc d0 /\ d_dp (fst s) = d_dp d0.
Proof. intros H1 H2. exact (coalesced H max size H1 d0 H2 es s). Qed.
(** It ends without error under every fair schedule, and from wherever it was interrupted. *)
Theorem C18_ends H max size d0 f : 0 < size -> keyed d0 -> ranked (d_certs d0) max -> ranked (d_pols d0) max ->
  (forall p n, p < 32 -> exists m, n <= m /\ f m = p) -> exists n, returned (exec H max size (start d0) (map (fun k => Work (f k)) (seq 0 n))) = true.
Proof. intros H1 H2. exact (coalesce_fair H max size H1 d0 H2 f). Qed.
Theorem C18_resumes H max size d0 es : 0 < size -> keyed d0 -> ranked (d_certs d0) max -> ranked (d_pols d0) max ->
  exists more, returned (exec H max size (start d0) (es ++ more)) = true.
Proof. intros H1 H2. exact (coalesce_ends H max size H1 d0 H2 es). Qed.
Definition db_c : db := mk_db [row x01 x00 100; row x02 x01 900; row x03 x01 900; row x04 x00 900] []
  [([x0a], false); ([x0b], true); ([x0c], false); ([xff], false)] [([x0a], [x61]); ([x0b], [x62]); ([x0c], [x63]); ([xff], [x64])]
  [([x0a], [x03]); ([x0a], [x02]); ([x0b], [x04]); ([x0c], [x77]); ([xff], [x04])] [] [].
Definition steps (p n : nat) : list event := repeat (Work p) n.
Definition schedule : list event := steps 1 3 ++ steps 31 2 ++ [Restart] ++ steps 1 5 ++ steps 31 9 ++ steps 1 12 ++ flat_map (fun p => steps p 1) (seq 0 32).
Example C18_example : let s := exec tag 10 1 (start db_c) schedule in
  returned s = true /\ d_pay (fst s) = [([x0a], mk_pr (Some [x01; x02; x03]) (Some [x01; x02; x03; x99]) None None); ([xff], mk_pr (Some [x04]) (Some [x04; x99]) None None)] /\
  d_domains (fst s) = [([x0a], [x61]); ([x0b], [x62]); ([xff], [x64])] /\ d_dirty (fst s) = [([x0a], true); ([x0b], true); ([x0c], true); ([xff], true)].
Proof. vm_compute. repeat split. Qed.
Example C18_keyed : keyed db_c.
Proof. repeat split; repeat constructor; cbn; intuition discriminate. Qed.
Example C18_ranked : ranked (d_certs db_c) 2 /\ ranked (d_pols db_c) 2.
Proof.
  split; exists (fun i => if beqb i [x03] then 1 else if beqb i [x02] then 1 else 0); intros c Hc; cbn in Hc; [|destruct Hc].
  repeat (destruct Hc as [<-|Hc]; [vm_compute; split; [lia | intros Hp; repeat (destruct Hp as [Hp|Hp]; [try discriminate; lia|]); destruct Hp]|]). destruct Hc.
Qed.

Print Assumptions C17_exact_partial.
Print Assumptions C17_sound.
Print Assumptions C17_last_batch_refuted.
Print Assumptions C17_refuted.
Print Assumptions C24_keeps.
Print Assumptions C24_calls.
Print Assumptions C24_pairs.
Print Assumptions C23_stored.
Print Assumptions C23_expiration_partial.
Print Assumptions C23_returns.
Print Assumptions C23_refuted.
Print Assumptions C22_overwrite.
Print Assumptions C22_keep_partial.
Print Assumptions C22_keep_lost_refuted.
Print Assumptions C22_refuted.
Print Assumptions C22_policy_refuted.
Print Assumptions C25_exact.
Print Assumptions C25_crash.
Print Assumptions C25_returns.
Print Assumptions C25_time_partial.
Print Assumptions C25_zone_refuted.
Print Assumptions C25_fraction_refuted.
Print Assumptions C18_coalesced.
Print Assumptions C18_ends.
Print Assumptions C18_resumes.
