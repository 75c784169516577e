(** Property theorems C35, C36 and C66: the local log fetcher, the HTTP log fetcher and the recorded size of a log, for the model in
    FetchModel.v. *)
From Coq Require Import Permutation.
From Verif Require Import Base BaseLemmas SysModel SysProofs FetchModel FetchSeqProofs FetchProofs.

(** * C35 *)
(** For files whose names have start <= end, whatever the order in which Go walks its map, Initialize ends. It fails exactly if two
    files have the same start. Otherwise the map holds, for the start of each file, the longest chain of files without gaps from there,
    and nothing else. *)
Theorem C35_chains_partial : forall files fuel order, (forall l, Permutation (order l) l) ->
  (forall f, In f files -> (fi_start f <= fi_end f)%Z) -> length files < fuel ->
  (NoDup (map fi_start files) /\ exists m, initialize fuel order files = Some (Some m) /\
     forall s, (exists f, In f files /\ fi_start f = s) /\ (exists l, get m s = Some l /\ longest files s l) \/
               (forall f, In f files -> fi_start f <> s) /\ get m s = None) \/
  (~ NoDup (map fi_start files) /\ initialize fuel order files = Some None).
Proof. exact initialize_ok. Qed.
Print Assumptions C35_chains_partial.

(** The order does not matter. *)
Theorem C35_order : forall files fuel fuel' order order', (forall l, Permutation (order l) l) -> (forall l, Permutation (order' l) l) ->
  (forall f, In f files -> (fi_start f <= fi_end f)%Z) -> length files < fuel -> length files < fuel' ->
  (initialize fuel order files = Some None /\ initialize fuel' order' files = Some None) \/
  exists m m', initialize fuel order files = Some (Some m) /\ initialize fuel' order' files = Some (Some m') /\ forall s, get m s = get m' s.
Proof.
  intros files fuel fuel' order order' Ho Ho' Hup Hf Hf'.
  destruct (initialize_ok files fuel order Ho Hup Hf) as [[Hn (m & Hi & Hm)]|[Hn Hi]];
    destruct (initialize_ok files fuel' order' Ho' Hup Hf') as [[Hn' (m' & Hi' & Hm')]|[Hn' Hi']]; try contradiction; [|left; auto].
  right. exists m, m'. split; [exact Hi|]. split; [exact Hi'|]. intros s.
  destruct (Hm s) as [[(f & Hfi & Ef) (l & El & Hl)]|[Hno El]]; destruct (Hm' s) as [[(f' & Hfi' & Ef') (l' & El' & Hl')]|[Hno' El']].
  - rewrite El, El'. f_equal. exact (longest_unique files Hn s l l' Hl Hl').
  - exfalso. exact (Hno' f Hfi Ef).
  - exfalso. exact (Hno f' Hfi' Ef').
  - rewrite El, El'. reflexivity.
Qed.
Print Assumptions C35_order.

(** The state that is reported, when the current size is [size]: the end of a part [p] of the longest chain from [size], which has at
    least one file if there is any, which takes more than the limit only if it is one file, and which cannot be made longer within the
    limit. The files then read are exactly [p]. *)
Theorem C35_target_partial : forall files fuel order m max size, (forall l, Permutation (order l) l) ->
  (forall f, In f files -> (fi_start f <= fi_end f)%Z) -> length files < fuel -> initialize fuel order files = Some (Some m) ->
  exists p q, longest files size (p ++ q) /\ current_state m max size = ends size p /\ requested m size (ends size p - 1) = p /\
    (p = [] -> q = []) /\
    (length p <= 1 \/ (ends size p - size <= max)%Z) /\
    (forall e q', q = e :: q' -> (max < fi_end e + 1 - size)%Z).
Proof.
  intros files fuel order m max size Ho Hup Hf Hi.
  destruct (initialize_ok files fuel order Ho Hup Hf) as [[Hn (m' & Hi' & Hm)]|[Hn Hi']]; rewrite Hi in Hi'; [injection Hi' as <- | discriminate Hi'].
  unfold current_state, requested. destruct (Hm size) as [[_ (l & El & Hl)]|[Hno El]]; rewrite El.
  - assert (Hlne : l <> []) by (intros ->; destruct (Hm size) as [[(f & Hfi & Ef) _]|[_ Y]]; [exact (proj2 Hl f Hfi Ef) | congruence]).
    assert (E0 : target_size true l size max 0 = target_size true l size max size) by (destruct l; [congruence | reflexivity]). rewrite E0.
    destruct (target_spec files Hup size max l size size true) as (p & q & -> & H2 & H3 & H4 & H5).
    + exact (proj1 Hl).
    + reflexivity.
    + lia.
    + exists p, q. split; [exact Hl|]. split; [exact H2|]. split; [exact (upto_spec files Hup size p q (proj1 Hl))|].
      split; [intros X; exfalso; exact (H3 eq_refl Hlne X)|]. split.
      * destruct p as [|e0 p0] using rev_ind; [left; cbn; lia|]. clear IHp0.
        destruct (H4 p0 e0 [] eq_refl) as [[_ ->]|X]; [left; cbn; lia|]. right. unfold ends. rewrite last_last.
        destruct (p0 ++ [e0]) eqn:Y; [destruct p0; discriminate Y | lia].
      * intros e q' X. destruct (H5 e q' X) as [_ Y]. lia.
  - exists [], []. cbn. split; [split; [constructor | exact Hno]|]. split; [reflexivity|]. split; [reflexivity|]. split; [reflexivity|]. split; [left; lia | discriminate].
Qed.
Print Assumptions C35_target_partial.

(** A non-trivial case: files 0-9, 10-19, 20-29 and 40-49, walked in reverse, limit of 20 entries. From 0 the first two are read, from
    20 the third; from 30 nothing can be read. *)
Definition ex_files : list file := [mk_file 20 29 3; mk_file 0 9 1; mk_file 40 49 5; mk_file 10 19 2].
Example C35_example : exists m, initialize 5 (@rev Z) ex_files = Some (Some m) /\
  current_state m 20 0 = 20%Z /\ requested m 0 19 = [mk_file 0 9 1; mk_file 10 19 2] /\
  current_state m 20 20 = 30%Z /\ current_state m 20 30 = 30%Z /\ current_state m 5 10 = 20%Z /\ get m 0 = Some [mk_file 0 9 1; mk_file 10 19 2; mk_file 20 29 3].
Proof. eexists. split; [vm_compute; reflexivity|]. repeat split; vm_compute; reflexivity. Qed.

(** Without start <= end, Initialize does not end: a file named 5-4.gz is enough, or 5-9.gz with 10-4.gz (F22). *)
Lemma chain_runs m s t : get m s = Some [mk_file s (s - 1) t] -> forall fuel, chain fuel m s = None.
Proof. intros Hg. induction fuel as [|fuel IH]; [reflexivity|]. cbn [chain]. rewrite Hg. cbn [last fi_end]. replace (s - 1 + 1)%Z with s by lia. rewrite IH. reflexivity. Qed.
Theorem C35_terminates_refuted : exists files, files <> [] /\ NoDup (map fi_start files) /\ forall fuel order, (forall l, Permutation (order l) l) -> initialize fuel order files = None.
Proof.
  exists [mk_file 5 4 1]. split; [discriminate|]. split; [constructor; [intros [] | constructor]|]. intros fuel order Ho. unfold initialize. cbn [singles get fi_start put map fst].
  specialize (Ho [5%Z]). apply Permutation_sym, Permutation_length_1_inv in Ho. rewrite Ho. cbn [extend]. rewrite (chain_runs _ 5 1); reflexivity.
Qed.
Print Assumptions C35_terminates_refuted.

(** * C36 *)
(** Downloading [a,b] from a server that answers each request with at least one and at most all of the entries asked for, beginning at
    the first one, or with an error: the call ends, and either returns an error or has put exactly the entries a..b, in order, into the
    first b-a+1 places of the buffer. *)
Theorem C36_download : forall E log srv, honest E log srv -> forall sbs, (0 < sbs)%Z -> forall fuel n buf a b,
  (a <= b)%Z -> Z.to_nat (Z.min sbs (b - a + 1)) < fuel -> Z.to_nat (b - a + 1) <= length buf ->
  in_batches E srv sbs fuel n buf a b = Some Err \/
  exists buf' n', in_batches E srv sbs fuel n buf a b = Some (Ok (buf', n')) /\ length buf' = length buf /\
    firstn (Z.to_nat (b - a + 1)) buf' = entries E log a b.
Proof. exact in_batches_ok. Qed.
Print Assumptions C36_download.
(** [entries] lists them one after the other. *)
Theorem C36_entries : forall E (log : Z -> E) a b, (a <= b + 1)%Z ->
  Z.of_nat (length (entries E log a b)) = (b - a + 1)%Z /\ forall k, (0 <= k <= b - a)%Z -> nth_error (entries E log a b) (Z.to_nat k) = Some (log (a + k)%Z).
Proof.
  intros E log a b Hab. split; [rewrite entries_length; lia|]. intros k Hk. unfold entries. rewrite nth_error_map.
  replace (nth_error (seq 0 (Z.to_nat (b - a + 1))) (Z.to_nat k)) with (Some (Z.to_nat k)); [cbn; do 2 f_equal; lia|].
  symmetry. rewrite (nth_error_nth' _ 0) by (rewrite seq_length; lia). rewrite seq_nth by lia. reflexivity.
Qed.
Print Assumptions C36_entries.
(** An error is returned only if the server returned one. *)
Lemma raw_loop_err E srv fuel : forall n buf a b o, raw_loop E srv fuel n buf a b o = Some Err -> exists n' x y, srv n' x y = None.
Proof.
  induction fuel as [|fuel IH]; intros n buf a b o H; [discriminate H|]. cbn [raw_loop] in H. destruct (o <? b - a + 1)%Z; [|discriminate H].
  destruct (srv n (a + o)%Z b) as [l|] eqn:Es; [|eauto]. destruct (write E buf (Z.to_nat o) l); [exact (IH _ _ _ _ _ H) | discriminate H].
Qed.
Lemma on_slice_err E srv fuel n buf lo hi a b : on_slice E buf lo hi (fun sub => raw_entries E srv fuel n sub a b) = Some Err -> exists n' x y, srv n' x y = None.
Proof.
  unfold on_slice, raw_entries. destruct (in_range _ _ _); [|discriminate]. destruct (raw_loop E srv fuel n _ a b 0) as [[[sub n']| |]|] eqn:Er; try discriminate.
  intros _. exact (raw_loop_err _ _ _ _ _ _ _ _ Er).
Qed.
Lemma batches_err E srv sbs fuel todo : forall i n buf a, batches_loop E srv sbs fuel todo i n buf a = Some Err -> exists n' x y, srv n' x y = None.
Proof.
  induction todo as [|todo IH]; intros i n buf a H; [discriminate H|]. cbn [batches_loop] in H.
  destruct (on_slice _ _ _ _ _) as [[[buf' n']| |]|] eqn:Eo; try discriminate H; [exact (IH _ _ _ _ H) | exact (on_slice_err _ _ _ _ _ _ _ _ _ Eo)].
Qed.
Theorem C36_no_error : forall E srv sbs fuel n buf a b, in_batches E srv sbs fuel n buf a b = Some Err -> exists n' x y, srv n' x y = None.
Proof.
  intros E srv sbs fuel n buf a b. unfold in_batches. destruct (b <? a)%Z; [discriminate|]. destruct (in_range _ _ _); [|discriminate].
  destruct (batches_loop E srv sbs fuel _ 0 n buf a) as [[[buf' n']| |]|] eqn:Eb; try discriminate; [|intros _; exact (batches_err _ _ _ _ _ _ _ _ _ Eb)].
  destruct (_ <=? b)%Z; [|discriminate]. apply on_slice_err.
Qed.
Print Assumptions C36_no_error.

(** A server that answers with no entries, which the statement excludes, keeps the fetcher asking for ever. *)
Theorem C36_empty_answers : forall E (srv : nat -> Z -> Z -> option (list E)) a b, (a <= b)%Z -> (forall n x y, srv n x y = Some []) ->
  forall fuel n buf, raw_loop E srv fuel n buf a b 0 = None.
Proof. exact raw_loop_starves. Qed.
Print Assumptions C36_empty_answers.

(** A server giving one, two, three, one, two, three ... entries; the log is 0,1,2,...; batches of 4. *)
Definition ex_srv (n : nat) (a b : Z) : option (list Z) := Some (entries Z (fun z => z) a (Z.min b (a + Z.of_nat (n mod 3)))).
Example C36_download_honest : honest Z (fun z => z) ex_srv.
Proof.
  intros n a b l Hab Hl. injection Hl as <-. exists (Z.min b (a + Z.of_nat (n mod 3))). split; [lia | reflexivity].
Qed.
Example C36_download_example : in_batches Z ex_srv 4 6 0 (repeat 0%Z 12) 7 17 = Some (Ok ([7; 8; 9; 10; 11; 12; 13; 14; 15; 16; 17; 0]%Z, 8)).
Proof. vm_compute. reflexivity. Qed.

(** The background fetcher and the updater. If no update starts while the fetcher of an earlier one is still at work (an earlier one
    may have failed, or been cancelled, and the process may crash), then nothing ever panics, and what an update has put into the
    database up to now are exactly the entries from its start on, in order, each once, after what was there before. *)
Theorem C36_delivery_partial : forall E log pbs, (0 < pbs)%Z -> forall l, patient E log pbs l (sys0 E) ->
  let s := run (fetch_step E log pbs) (sys0 E) l in
  dead E s = false /\
  (running E s = true -> target E s = (f_end E s + 1)%Z /\
     exists pre, inserted E s = pre ++ entries E log (f_start E s) (last_size E s - 1)) /\
  (running E s = true -> nth_error (chans E s) (f_chan E s) = Some (mk_chan E [] true) ->
     (exists pre, inserted E s = pre ++ entries E log (f_start E s) (target E s - 1)) /\
     ((f_start E s < target E s)%Z -> recorded E s = target E s)).
Proof.
  intros E log pbs Hp l Hl s. pose proof (patient_inv E log pbs Hp l (sys0 E) (inv0 E log pbs) Hl) as HI. fold s in HI.
  pose proof HI as (Hd & Ht & _ & Htk & _). split; [exact Hd|]. split; [|exact (drained E log pbs Hp s HI)].
  intros Hr. destruct (Htk Hr) as (H1 & _ & (pre & H2 & _) & _). split; [exact H1|]. exists pre. exact H2.
Qed.
Print Assumptions C36_delivery_partial.

(** And every update ends: from then on the goroutines and the updater can do only finitely many steps, however they are scheduled and
    whichever downloads fail, and as long as the update runs one of them can do a step. *)
Theorem C36_ends : forall E log pbs, (0 < pbs)%Z -> forall l, patient E log pbs l (sys0 E) ->
  let step := fetch_step E log pbs in
  let s := run step (sys0 E) l in
  let own a := match a with Go _ _ | Recv _ => True | _ => False end in
  exists bound, forall l', Forall own l' -> effective step s l' <= bound /\
    (running E (run step s l') = true -> exists a, own a /\ step (run step s l') a <> None).
Proof.
  intros E log pbs Hp l Hl step s own. pose proof (patient_inv E log pbs Hp l (sys0 E) (inv0 E log pbs) Hl) as HI. fold step in HI. fold s in HI.
  exists (mu E pbs s). intros l' Hl'. split; [exact (quiet_bound E log pbs Hp l' s HI Hl')|]. intros Hr.
  apply (quiet_progress E log pbs (run step s l')); [|exact Hr]. apply (patient_inv E log pbs Hp l' s HI).
  clear -Hl'. generalize s as x. clear s. induction l' as [|a l' IH]; intros x; [exact I|]. inversion Hl'; subst. split; [destruct a; try exact I; contradiction | apply IH; assumption].
Qed.
Print Assumptions C36_ends.

(** A run of this kind: an update of a log with 3 entries, batches of 2; the second download fails; the next update starts when the
    goroutine is about to return, and ends. *)
Definition ex_run : list act :=
  [Cycle 3; Go 0 true; Go 0 true; Go 0 true; Go 0 true; Go 0 true; Recv true; Go 0 false; Go 0 true; Go 0 true; Go 0 true; Recv true;
   Cycle 3; Go 1 true; Go 0 true; Go 1 true; Go 1 true; Go 1 true; Go 1 true; Go 1 true; Go 1 true; Recv true; Go 1 true; Go 1 true; Go 1 true; Recv true; Go 1 true].
Example C36_run_example : patient Z (fun z => z) 2 ex_run (sys0 Z) /\
  let s := run (fetch_step Z (fun z => z) 2) (sys0 Z) ex_run in
  running Z s = true /\ nth_error (chans Z s) (f_chan Z s) = Some (mk_chan Z [] true) /\ inserted Z s = [0; 1; 0; 1; 2]%Z /\ recorded Z s = 3%Z.
Proof. split; [vm_compute; repeat split; repeat constructor | vm_compute; repeat split]. Qed.

(** Without waiting for the goroutine of a failed update the entries of an update are not those of the log any more (F67): entry 1
    comes first, then 0 ... *)
Definition hasty : list act :=
  [Cycle 3; Go 0 true; Go 0 true; Go 0 true; Go 0 true; Go 0 true;       (* batch 0 on channel 0 *)
   Go 0 true;                                                            (* batch 1 downloaded *)
   RecvFail;                                                             (* batch 0 not inserted: the update fails *)
   Cycle 3; Go 0 true; Go 0 true; Go 0 true;                             (* the old goroutine sends batch 1 on channel 1 *)
   Go 1 true; Go 1 true; Go 1 true; Go 1 true; Go 1 true;                (* the new one sends batch 0 *)
   Recv true; Recv true;
   Go 1 true; Go 1 true; Go 1 true; Go 1 true;                           (* and batch 1 *)
   Recv true].
Theorem C36_delivery_refuted : exists l, let s := run (fetch_step Z (fun z => z) 1) (sys0 Z) l in
  running Z s = true /\ f_start Z s = 0%Z /\ last_size Z s = 3%Z /\ inserted Z s = [1; 0; 1]%Z.
Proof. exists hasty. vm_compute. repeat split. Qed.
Print Assumptions C36_delivery_refuted.
(** ... and the process can panic, sending on a closed channel. *)
Theorem C36_panic_refuted : exists l, dead Z (run (fetch_step Z (fun z => z) 1) (sys0 Z) l) = true.
Proof.
  exists ([Cycle 2; Go 0 true; Go 0 true; Go 0 true; Cancel;              (* the old goroutine has batch 0 in its hands *)
          Cycle 1; Go 1 true; Go 1 true; Go 1 true; Go 1 true; Go 1 true; Go 1 true; Go 1 true; (* the new one does its work and closes its channel *)
          Go 0 true; Go 0 true]).
  vm_compute. reflexivity.
Qed.
Print Assumptions C36_panic_refuted.

(** * C66 *)
(** The size recorded for a log is true in all runs of this kind, also with crashes in between: the certificates of all entries below
    it are in the database. *)
Theorem C66_recorded_partial : forall E log pbs, (0 < pbs)%Z -> forall l, patient E log pbs l (sys0 E) ->
  let s := run (fetch_step E log pbs) (sys0 E) l in
  forall j, (0 <= j < recorded E s)%Z -> In (log j) (inserted E s).
Proof.
  intros E log pbs Hp l Hl s. exact (proj1 (proj2 (patient_inv E log pbs Hp l (sys0 E) (inv0 E log pbs) Hl))).
Qed.
Print Assumptions C66_recorded_partial.
Example C66_recorded_example : let l := ex_run ++ [Recv true; Crash; Cycle 5; Go 0 true; Go 0 true; Go 0 true; Go 0 true; Go 0 true; Crash; Crash] in
  patient Z (fun z => z) 2 l (sys0 Z) /\ recorded Z (run (fetch_step Z (fun z => z) 2) (sys0 Z) l) = 3%Z.
Proof. split; [vm_compute; repeat split; repeat constructor | vm_compute; reflexivity]. Qed.

(** Otherwise it is not: size 3 is recorded, entry 2 was never inserted, and after a restart the next update reads the log from
    3 on, whatever the size of the log is then (F67). *)
Theorem C66_retry_refuted : exists l, let s := run (fetch_step Z (fun z => z) 1) (sys0 Z) l in
  recorded Z s = 3%Z /\ ~ In 2%Z (inserted Z s) /\ gors Z s = [] /\
  forall size, f_start Z (do (fetch_step Z (fun z => z) 1) s (Cycle size)) = 3%Z.
Proof. exists (hasty ++ [Crash]). cbv zeta. split; [vm_compute; reflexivity|]. split; [vm_compute; intros H; repeat (destruct H as [H|H]; [discriminate H|]); destruct H|].
  split; [vm_compute; reflexivity|]. intros size. vm_compute. reflexivity. Qed.
Print Assumptions C66_retry_refuted.
