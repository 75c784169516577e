(** Property theorems C100: the statistics of the ingestion, for the model in StatsModel.v. *)
From Verif Require Import Base BaseLemmas UtilModel BatchModel CsvModel StatsModel StatsProofs.

(** * C100 *)
(** However the rows are dealt to the workers: when all rows were accepted, the counters of rows and of expired rows are the number of rows and the number of
    those with a time stamp before now; the counters of certificates and bytes are those of the expired rows and of a list of payloads, each the decoding of
    the certificate or of a part of the chain of a row; and every certificate that was passed on was counted as uncached, which are at most the certificates. *)
Theorem C100_end : forall H b64 x509 not_after now size parts,
  (forall rows, In rows parts -> snd (worker H b64 x509 not_after now size rows []) = true) ->
  let sum c := fold_right (fun rows s => total c (worker_adds H b64 x509 not_after now size rows []) + s) 0 parts in
  let out := flat_map (fun rows => fst (worker H b64 x509 not_after now size rows [])) parts in
  sum Rows = length (concat parts) /\
  sum Expired = length (filter (fun p => match get_expiration (p_exp p) with Some n => (n * 1000000000 <? now)%Z | None => false end) (concat parts)) /\
  length out <= sum Uncached <= sum Certs /\
  exists seen, Forall (fun r => exists p, In p (concat parts) /\ (b64 (p_cert p) = Some r \/ exists s, In s (split_semicolon (p_chain p)) /\ b64 s = Some r)) seen /\
    sum Certs = sum Expired + length seen /\ sum Bytes = length (concat seen).
Proof.
  intros H b64 x509 not_after now size parts A sum out. subst sum out. induction parts as [|rows parts IH].
  - cbn. repeat (split; [lia|]). exists []. repeat split; constructor.
  - destruct (IH (fun r I => A r (or_intror I))) as (I1 & I2 & (I3 & I4) & s2 & F2 & C2 & B2). clear IH.
    destruct (worker_end H b64 x509 not_after now size rows [] (A rows (or_introl eq_refl))) as (W1 & W2 & W3 & s1 & F1 & C1 & B1).
    destruct (worker_bal H b64 x509 not_after now size rows []) as [W4 _].
    apply bal_prefix with (n := length (worker_adds H b64 x509 not_after now size rows [])) in W4. rewrite firstn_all in W4.
    cbn [fold_right flat_map concat]. rewrite filter_app, !app_length. unfold stamp_over in W2.
    split; [lia|]. split; [lia|]. split; [lia|]. exists (s1 ++ s2). split; [|rewrite concat_app, !app_length; split; [lia|]].
    + apply Forall_app. split; [eapply Forall_impl; [|exact F1]|eapply Forall_impl; [|exact F2]]; intros r (p & P1 & P2); exists p; (split; [apply in_or_app; auto|exact P2]).
    + rewrite B1, B2. f_equal. clear. induction s1 as [|r s1 IH]; cbn; [reflexivity|]. rewrite app_length. unfold sum_length in IH. lia.
Qed.
Print Assumptions C100_end.
(** At every moment, with or without errors: no more uncached certificates than certificates, and no more expired rows than rows. *)
Theorem C100_moment : forall H b64 x509 not_after now size parts done,
  let workers := map (fun rows => worker_adds H b64 x509 not_after now size rows []) parts in
  value_at Uncached workers done <= value_at Certs workers done /\ value_at Expired workers done <= value_at Rows workers done.
Proof.
  intros H b64 x509 not_after now size parts done workers. split; apply value_le; intros w I; apply in_map_iff in I as (rows & <- & _);
    destruct (worker_bal H b64 x509 not_after now size rows []); assumption.
Qed.
Print Assumptions C100_moment.
(** So percentages computed from one moment are at most 100. *)
Theorem C100_percent : forall H b64 x509 not_after now size parts done,
  let workers := map (fun rows => worker_adds H b64 x509 not_after now size rows []) parts in
  fst (printed workers done done done done) <= 100 /\ snd (printed workers done done done done) <= 100.
Proof.
  intros H b64 x509 not_after now size parts done workers. destruct (C100_moment H b64 x509 not_after now size parts done) as [A B]. fold workers in A, B.
  assert (P : forall n d, n <= d -> percent n d <= 100).
  { intros n d L. unfold percent. destruct (Nat.eqb_spec d 0) as [E|E]; [lia|]. apply Nat.div_le_upper_bound; [exact E|]. nia. }
  split; apply P; assumption.
Qed.
Print Assumptions C100_percent.
(** The counters of what was written: whatever pipeline of the database follows, as long as it has no such sink of its own, the sink that counts does not run, and
    both counters stay 0 for any certificates. *)
Theorem C100_unwritten : forall s w c last sent, ~ In CertSink last -> written (join_raw (files_stages s w c) [] last) sent = (0, 0).
Proof. intros s w c last sent L. unfold written. rewrite no_cert_sink; [reflexivity|]. intros x I ->. exact (L I). Qed.
Print Assumptions C100_unwritten.

(** What JoinPipelinesRaw keeps, for pipelines with one source and one sink: the source of the first, the sink of the last, and all stages in between, in order. *)
Theorem C100_stages : forall a ws z mids b vs y,
  is_source a = true -> is_sink a = false -> is_sink z = true -> is_source z = false -> is_source b = true -> is_sink b = false -> is_sink y = true -> is_source y = false ->
  (forall s, In s (ws ++ concat (map snd mids) ++ vs) -> is_source s = false /\ is_sink s = false) -> (forall m, In m mids -> is_source (fst (fst m)) = true /\ is_sink (snd (fst m)) = true) ->
  join_raw (a :: ws ++ [z]) (map (fun m => fst (fst m) :: snd m ++ [snd (fst m)]) mids) (b :: vs ++ [y]) = a :: ws ++ concat (map snd mids) ++ vs ++ [y].
Proof.
  intros a ws z mids b vs y A1 A2 Z1 Z2 B1 B2 Y1 Y2 P Q. unfold join_raw.
  assert (K : forall (f : stage -> bool) l, (forall s, In s l -> f s = true) -> filter f l = l).
  { intros f l. induction l as [|s l IH]; intros E; [reflexivity|]. cbn [filter]. rewrite (E s (or_introl eq_refl)). f_equal. apply IH. intros x I. apply E. right. exact I. }
  cbn [filter]. rewrite A2, B1. cbn [negb]. rewrite !filter_app. cbn [filter]. rewrite Z1, Y2. cbn [negb]. rewrite app_nil_r.
  rewrite (K _ ws) by (intros s I; destruct (P s) as [_ ->]; [apply in_or_app; left; exact I|reflexivity]).
  rewrite (K _ vs) by (intros s I; destruct (P s) as [-> _]; [apply in_or_app; right; apply in_or_app; right; exact I|reflexivity]).
  cbn [app]. f_equal. f_equal. f_equal. assert (M : forall s, In s (concat (map snd mids)) -> negb (is_source s) && negb (is_sink s) = true).
  { intros s I. destruct (P s) as [-> ->]; [apply in_or_app; right; apply in_or_app; left; exact I|reflexivity]. }
  clear P. induction mids as [|[[c d] us] mids IH]; [reflexivity|]. cbn [map flat_map concat fst snd] in *. destruct (Q (c, d, us) (or_introl eq_refl)) as [Q1 Q2]. cbn [fst snd] in Q1, Q2.
  cbn [filter]. rewrite Q1. cbn [negb andb]. rewrite filter_app. cbn [filter]. rewrite Q2. cbn [negb]. rewrite andb_false_r, app_nil_r.
  rewrite (K _ us) by (intros s I; apply M; apply in_or_app; left; exact I). f_equal. apply IH; [intros m I; apply Q; right; exact I|]. intros s I. apply M. apply in_or_app. right. exact I.
Qed.
Print Assumptions C100_stages.

Module StatsTest.
  Definition B64 (s : bytes) : option bytes := Some s.
  Definition X509 (r : bytes) : option cert := match r with [] => None | _ => Some (mk_cert r [r]) end.
  Definition D : bytes := [x64].                                   (* the certificate that has expired *)
  Definition ends (c : cert) : Z := if beqb (raw c) D then 1000000000%Z else 100000000000%Z.
  Definition now : Z := 5000000000%Z.
  Definition old : bytes := [x31; full_stop; x35]. Definition new : bytes := [x39; full_stop; x35].
  Definition A : bytes := [x41; x41]. Definition R : bytes := [x52].
  Definition L1 : bytes := [x61]. Definition L2 : bytes := [x62].
  Definition adds := worker_adds (fun r => r) B64 X509 ends now 10.
  Definition work := worker (fun r => r) B64 X509 ends now 10.
  Definition rows1 := [mk_parsed L1 (A ++ semicolon :: R) new; mk_parsed L2 R old; mk_parsed L2 R new].
End StatsTest.
Import StatsTest.
(** Two workers, one with an expired row: four rows, eight certificates (one of them in the expired row, one in the cache), eight bytes, and six certificates passed on. *)
Example C100_example :
  let parts := [rows1; [mk_parsed L1 R new]] in
  Forall (fun rows => snd (work rows []) = true) parts /\
  map (fun c => fold_right (fun rows s => total c (adds rows []) + s) 0 parts) [Rows; Certs; Bytes; Uncached; Expired] = [4; 8; 8; 6; 1] /\
  length (flat_map (fun rows => fst (work rows [])) parts) = 6 /\
  (forall done, value_at Uncached (map (fun rows => adds rows []) parts) done <= value_at Certs (map (fun rows => adds rows []) parts) done) /\
  printed (map (fun rows => adds rows []) parts) [5; 2] [5; 2] [5; 2] [5; 2] = (50, 0) /\
  ~ In CertSink [DbSource; DbStage; DbSink] /\ join_raw (files_stages 1 2 1) [] [DbSource; DbStage; DbSink] = [FileSource; Splitter; Parser; Parser; Dechainer; DbStage; DbSink].
Proof.
  cbv zeta. split; [repeat constructor|]. split; [vm_compute; reflexivity|]. split; [vm_compute; reflexivity|]. split; [intros done; apply (C100_moment (fun r => r) B64 X509 ends now 10 [rows1; [mk_parsed L1 R new]] done)|].
  split; [vm_compute; reflexivity|]. split; [cbn; intuition discriminate|reflexivity].
Qed.
Example C100_stages_example : join_raw (files_stages 1 2 1) [[DbSource; DbStage; DbSink]] [DbSource; DbStage; DbStage; DbSink] = [FileSource; Splitter; Parser; Parser; Dechainer; DbStage; DbStage; DbStage; DbSink].
Proof. apply (C100_stages FileSource [Splitter; Parser; Parser; Dechainer] CertSink [((DbSource, DbSink), [DbStage])] DbSource [DbStage; DbStage] DbSink); try reflexivity; cbn; intros m I; repeat (destruct I as [<-|I]; [split; reflexivity|]); contradiction. Qed.
(** Certificates are sent to the database, and the line says that none was written. *)
Theorem C100_written_refuted : exists rows, snd (work rows []) = true /\ fst (work rows []) <> [] /\
  written (join_raw (files_stages 1 2 1) [] [DbSource; DbStage; DbSink]) (fst (work rows [])) = (0, 0) /\
  fst (written (files_stages 1 2 1) (fst (work rows []))) = length (fst (work rows [])).
Proof. exists rows1. split; [reflexivity|]. split; [vm_compute; discriminate|]. split; reflexivity. Qed.
Print Assumptions C100_written_refuted.
(** A row whose certificate has expired is left out like one with an old time stamp, but counted as uncached and not as expired. *)
Theorem C100_expired_refuted : exists p r c, B64 (p_cert p) = Some r /\ X509 r = Some c /\ (ends c < now)%Z /\ work [p] [] = ([], true) /\
  total Expired (adds [p] []) = 0 /\ total Uncached (adds [p] []) = 1.
Proof. exists (mk_parsed D R new), D, (mk_cert D [D]). repeat split; vm_compute; reflexivity. Qed.
Print Assumptions C100_expired_refuted.
(** A line with 300 % uncached certificates and 200 % expired rows: the numbers are loaded one after the other, and the workers go on. *)
Theorem C100_print_refuted : exists workers m1 m2 m3 m4, Forall (fun w => exists rows, w = adds rows [] /\ snd (work rows []) = true) workers /\
  Forall2 le m1 m2 /\ Forall2 le m2 m3 /\ Forall2 le m3 m4 /\ 100 < fst (printed workers m1 m2 m3 m4) /\ 100 < snd (printed workers m1 m2 m3 m4).
Proof.
  exists [adds [mk_parsed L1 (A ++ semicolon :: R) new; mk_parsed L2 R old; mk_parsed L2 R old] []], [2], [2], [10], [16].
  split; [constructor; [eexists; split; [reflexivity|vm_compute; reflexivity]|constructor]|]. do 3 (split; [repeat constructor|]).
  split; apply Nat.ltb_lt; vm_compute; reflexivity.
Qed.
Print Assumptions C100_print_refuted.
