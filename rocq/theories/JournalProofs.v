(** Text round trip of the journal, histories of commits, pending files. *)
From Coq Require Import Sorted.
From Verif Require Import Base BaseLemmas UtilModel UtilDuration JournalModel JournalIntervals.

(** ** Association lists *)
Lemma get_set_same {V} k (v : V) m : get_key k (set_key k v m) = Some v.
Proof.
  induction m as [|[k' v'] m IH]; cbn [set_key get_key]; [rewrite beqb_refl; reflexivity|].
  destruct (beqb k k') eqn:Hq; cbn [get_key]; [rewrite beqb_refl; reflexivity | rewrite Hq; exact IH].
Qed.
Lemma get_set_other {V} k k2 (v : V) m : k <> k2 -> get_key k2 (set_key k v m) = get_key k2 m.
Proof.
  intros Hn. apply beqb_neq in Hn. rewrite beqb_sym in Hn. induction m as [|[k' v'] m IH]; cbn [set_key get_key].
  - rewrite Hn. reflexivity.
  - destruct (beqb k k') eqn:Hq; cbn [get_key].
    + apply beqb_eq in Hq. subst k'. rewrite Hn. reflexivity.
    + rewrite IH. reflexivity.
Qed.
Lemma In_set_key {V} k (v : V) m kv : In kv (set_key k v m) -> kv = (k, v) \/ In kv m.
Proof.
  induction m as [|[k' v'] m IH]; cbn [set_key].
  - intros [<-|[]]. auto.
  - destruct (beqb k k'); cbn [In]; intros [Hi|Hi]; auto. destruct (IH Hi); auto.
Qed.
Lemma get_key_In {V} k (v : V) m : get_key k m = Some v -> In (k, v) m.
Proof.
  induction m as [|[k' v'] m IH]; cbn [get_key]; [discriminate|]. destruct (beqb_spec k k') as [->|Hn].
  - intros Hq. injection Hq as ->. left. reflexivity.
  - intros Hq. right. apply IH. exact Hq.
Qed.

Lemma all_some_map {A B} (f : A -> option B) l r : all_some (map f l) = Some r <-> Forall2 (fun x y => f x = Some y) l r.
Proof.
  revert r. induction l as [|x l IH]; intros r; cbn [map all_some].
  - split; [intros Hq; injection Hq as <-; constructor | intros Hq; inversion Hq; reflexivity].
  - split.
    + destruct (f x) as [y|] eqn:Hx; [|discriminate]. destruct (all_some (map f l)) as [r'|] eqn:Hl; [|discriminate].
      intros Hq. injection Hq as <-. constructor; [exact Hx|]. apply IH. reflexivity.
    + intros Hq. inversion Hq as [|? y ? r' Hx Hr]; subst. rewrite Hx. apply IH in Hr. rewrite Hr. reflexivity.
Qed.
Lemma all_some_id {A B} (f : A -> B) (g : B -> option A) l : (forall x, In x l -> g (f x) = Some x) -> all_some (map g (map f l)) = Some l.
Proof.
  intros Hf. rewrite map_map. apply all_some_map. induction l as [|x l IH]; constructor.
  - apply Hf. left. reflexivity.
  - apply IH. intros y Hy. apply Hf. right. exact Hy.
Qed.

(** ** Interval text *)
Lemma digit_prefix_app p r : forallb is_digit p = true -> (match r with [] => True | c :: _ => is_digit c = false end) ->
  digit_prefix (p ++ r) = (p, r).
Proof.
  intros Hp Hr. induction p as [|c p IH]; cbn [app].
  - destruct r as [|c r]; [reflexivity|]. cbn [digit_prefix]. rewrite Hr. reflexivity.
  - cbn [forallb] in Hp. apply andb_prop in Hp as [Hc Hp]. cbn [digit_prefix]. rewrite Hc, IH by exact Hp. reflexivity.
Qed.
Lemma digit_prefix_spec s : forall p r, digit_prefix s = (p, r) -> s = p ++ r /\ forallb is_digit p = true.
Proof.
  induction s as [|c s IH]; intros p r; cbn [digit_prefix].
  - intros Hq. injection Hq as <- <-. auto.
  - destruct (is_digit c) eqn:Hc.
    + destruct (digit_prefix s) as [p' r'] eqn:Hn. intros Hq. injection Hq as <- <-.
      destruct (IH _ _ eq_refl) as (-> & Hp). split; [reflexivity|]. cbn [forallb]. rewrite Hc, Hp. reflexivity.
    + intros Hq. injection Hq as <- <-. auto.
Qed.
(** Exactly which strings are intervals. *)
Theorem parse_interval_iff s iv : parse_interval s = Some iv <-> exists a b,
  s = a ++ x2d :: b /\ a <> [] /\ b <> [] /\ (forall c, In c (a ++ b) -> is_digit c = true) /\
  dec_value a = iv_s iv /\ dec_value b = iv_e iv /\ (iv_s iv <= iv_e iv < 2 ^ 64)%N.
Proof.
  split.
  - unfold parse_interval. destruct (digit_prefix s) as [a r] eqn:Hd. apply digit_prefix_spec in Hd as [-> Ha].
    destruct a as [|c0 a0] eqn:Ea; [discriminate|]. rewrite <- Ea in *.
    destruct r as [|c r]; [discriminate|]. destruct c; try discriminate. destruct r as [|c1 b1] eqn:Eb; [discriminate|]. rewrite <- Eb in *.
    destruct (forallb is_digit r) eqn:Hb; cbn [andb]; [|discriminate].
    destruct (N.ltb_spec (dec_value a) (2 ^ 64)) as [H1|H1]; cbn [andb]; [|discriminate].
    destruct (N.ltb_spec (dec_value r) (2 ^ 64)) as [H2|H2]; cbn [andb]; [|discriminate].
    destruct (N.leb_spec (dec_value a) (dec_value r)) as [H3|H3]; [|discriminate].
    intros Hq. apply (f_equal (fun o => match o with Some x => x | None => iv0 end)) in Hq. subst iv. cbn [iv_s iv_e].
    exists a, r. split; [reflexivity|]. split; [subst; discriminate|]. split; [subst; discriminate|]. split; [|auto].
    intros c Hc. rewrite forallb_forall in Ha, Hb. apply in_app_or in Hc as [Hc|Hc]; auto.
  - intros (a & b & -> & Ha & Hb & Hd & Hs & He & Hle & Hlt). unfold parse_interval. rewrite digit_prefix_app.
    + destruct a as [|c0 a0] eqn:Ea; [congruence|]. rewrite <- Ea in *. destruct b as [|c1 b1] eqn:Eb; [congruence|]. rewrite <- Eb in *.
      assert (Hfb : forallb is_digit b = true) by (apply forallb_forall; intros c Hc; apply Hd, in_or_app; auto).
      rewrite Hfb, Hs, He. destruct iv as [s e]. cbn [iv_s iv_e andb] in *.
      rewrite (proj2 (N.ltb_lt s _)) by lia. rewrite (proj2 (N.ltb_lt e _)) by lia. rewrite (proj2 (N.leb_le s e)) by lia. reflexivity.
    + apply forallb_forall. intros c Hc. apply Hd, in_or_app. auto.
    + reflexivity.
Qed.
Lemma parse_show iv : (iv_s iv <= iv_e iv < 2 ^ 64)%N -> parse_interval (show_interval iv) = Some iv.
Proof.
  intros Hi. apply parse_interval_iff. exists (dec_N (iv_s iv)), (dec_N (iv_e iv)).
  split; [reflexivity|]. split; [destruct (dec_N_cons (iv_s iv)) as (? & ? & -> & _); discriminate|].
  split; [destruct (dec_N_cons (iv_e iv)) as (? & ? & -> & _); discriminate|]. split; [|split; [apply dec_N_value|]; split; [apply dec_N_value | exact Hi]].
  intros c Hc. pose proof (dec_N_digits (iv_s iv)) as H1. pose proof (dec_N_digits (iv_e iv)) as H2. rewrite forallb_forall in H1, H2.
  apply in_app_or in Hc as [Hc|Hc]; auto.
Qed.

(** ** Reading back what was written *)
Definition in_uint (iv : interval) : Prop := (iv_s iv <= iv_e iv < 2 ^ 64)%N.
Lemma decode_encode c : (forall k l, In (k, l) c -> Forall in_uint l) ->
  decode_completed (map (fun kv => (fst kv, map show_interval (snd kv))) c) = Some c.
Proof.
  intros Hc. unfold decode_completed. apply all_some_id. intros [k l] Hkl. cbn [fst snd].
  rewrite (all_some_id show_interval parse_interval l); [reflexivity|]. intros iv Hiv. apply parse_show. specialize (Hc k l Hkl). rewrite Forall_forall in Hc. apply Hc. exact Hiv.
Qed.

Lemma append_at_end p iv : canonical p -> (forall a, In a p -> gap a iv) -> (iv_s iv < 2 ^ 64)%N -> append_interval p iv = p ++ [iv].
Proof.
  intros Hc Hg Hi. unfold append_interval.
  destruct (search_split p (iv_s iv) (canonical_starts p Hc)) as (pre & post & Hl & Hidx & Hpre & Hpost & _).
  assert (Hp : post = []).
  { destruct post as [|b post]; [reflexivity|]. exfalso. specialize (Hpost b (or_introl eq_refl)).
    assert (Hb : In b p) by (rewrite Hl; apply in_or_app; right; left; reflexivity). specialize (Hg b Hb). unfold gap in Hg.
    destruct Hc as [_ Hf]. rewrite Forall_forall in Hf. specialize (Hf b Hb). cbn beta in Hf. lia. }
  subst post. rewrite app_nil_r in Hl. subst pre. rewrite Hidx.
  destruct (Nat.ltb_spec 0 (length p)) as [Hpos|Hpos]; cbn [andb].
  - assert (Hy : In (nth (length p - 1) p iv0) p) by (apply nth_In; lia). specialize (Hg _ Hy). set (y := nth (length p - 1) p iv0) in *.
    assert (Hcm : can_merge y iv = false).
    { unfold can_merge. unfold gap in Hg. rewrite (wrap64_id (iv_e y + 1)) by lia. rewrite (proj2 (N.leb_gt (iv_s iv) _)) by lia. apply andb_false_r. }
    rewrite Hcm. pose proof (absorb_eq p [] (length p) iv ltac:(cbn; lia)) as Ha. rewrite app_nil_r in Ha. rewrite Ha. cbn [absorb_l fst snd].
    rewrite app_nil_r, firstn_all, skipn_all. reflexivity.
  - destruct p; [reflexivity | cbn in Hpos; lia].
Qed.
Lemma fold_append_canonical l : forall p, canonical (p ++ l) -> Forall in_uint l -> fold_left append_interval l p = p ++ l.
Proof.
  induction l as [|iv l IH]; intros p Hc Hu; cbn [fold_left]; [symmetry; apply app_nil_r|].
  inversion Hu as [|? ? Hi Hu']; subst.
  assert (Happ : append_interval p iv = p ++ [iv]).
  { destruct Hc as [Hs Hf]. apply ssorted_app in Hs as (Hs1 & _ & Hs12). apply Forall_app in Hf as [Hf1 _].
    apply append_at_end; [split; assumption | | unfold in_uint in Hi; lia]. intros a Ha. apply Hs12; [exact Ha | left; reflexivity]. }
  rewrite Happ, IH; [rewrite <- app_assoc; reflexivity | rewrite <- app_assoc; exact Hc | exact Hu'].
Qed.
Definition good_completed (c : completed) : Prop := forall k l, In (k, l) c -> k <> [] /\ canonical l /\ Forall in_uint l.
Theorem decode_encode_job j : good_completed (j_completed j) -> decode_job (encode_job j) = Some j.
Proof.
  intros Hg. unfold decode_job, encode_job. cbn [d_completed d_coalesced d_smt d_ctsize].
  rewrite decode_encode by (intros k l Hkl; apply (Hg k l Hkl)).
  assert (Hn : normalize_completed (j_completed j) = Some (j_completed j)).
  { unfold normalize_completed. apply all_some_map. unfold good_completed in Hg. induction (j_completed j) as [|[k l] c IH]; constructor.
    - destruct (Hg k l (or_introl eq_refl)) as (Hk & Hc & Hu). cbn [fst snd]. destruct k as [|b k]; [congruence|].
      assert (Hle : forallb (fun iv => N.leb (iv_s iv) (iv_e iv)) l = true).
      { apply forallb_forall. intros iv Hiv. apply N.leb_le. rewrite Forall_forall in Hu. specialize (Hu iv Hiv). unfold in_uint in Hu. lia. }
      rewrite Hle, (fold_append_canonical l []) by assumption. reflexivity.
    - apply IH. intros k' l' Hkl. apply Hg. right. exact Hkl. }
  rewrite Hn. destruct j. reflexivity.
Qed.

(** ** Commits *)
Definition key_covers (c : completed) (k : bytes) (i : N) : Prop := exists l, get_key k c = Some l /\ covers l i.
Definition strong (c : completed) : Prop := forall k l, In (k, l) c -> k <> [] /\ canonical l /\ Forall below_max l.
Lemma strong_good c : strong c -> good_completed c.
Proof.
  intros Hs k l Hkl. destruct (Hs k l Hkl) as (H1 & H2 & H3). split; [exact H1|]. split; [exact H2|].
  destruct H2 as [_ Hv]. rewrite Forall_forall in *. intros iv Hiv. specialize (H3 iv Hiv). specialize (Hv iv Hiv). unfold below_max in H3. unfold in_uint. cbn beta in Hv. lia.
Qed.
Lemma add_completed_ok c k iv : strong c -> k <> [] -> (iv_s iv <= iv_e iv)%N -> below_max iv ->
  strong (add_completed c k iv) /\
  forall k' i, key_covers (add_completed c k iv) k' i <-> key_covers c k' i \/ (k' = k /\ (iv_s iv <= i <= iv_e iv)%N).
Proof.
  intros Hs Hk Hv Hm. unfold add_completed. set (l := match get_key k c with None => [] | Some l => l end).
  assert (Hl : canonical l /\ Forall below_max l).
  { unfold l. destruct (get_key k c) as [l0|] eqn:Hq; [|split; [split; constructor | constructor]].
    apply get_key_In in Hq. destruct (Hs _ _ Hq) as (_ & H1 & H2). auto. }
  destruct Hl as [Hlc Hlm]. destruct (append_interval_ok l iv Hlc Hlm Hv Hm) as (H1 & H2 & H3). split.
  - intros k' l' Hkl. apply In_set_key in Hkl as [Hq|Hq]; [|apply Hs; exact Hq]. injection Hq as -> ->. auto.
  - intros k' i. unfold key_covers. destruct (beqb_spec k k') as [<-|Hne].
    + rewrite get_set_same. split.
      * intros (l' & Hq & Hc). injection Hq as <-. apply H3 in Hc as [Hc|Hc]; [|auto]. left. unfold l in Hc.
        destruct (get_key k c) as [l0|]; [eauto | destruct (covers_nil _ Hc)].
      * intros Hc. eexists. split; [reflexivity|]. apply H3. destruct Hc as [(l' & Hq & Hc)|[_ Hc]]; [|auto]. left. unfold l. rewrite Hq. exact Hc.
    + rewrite get_set_other by exact Hne. split; [auto|]. intros [Hc|[-> _]]; [exact Hc | congruence].
Qed.

(** The intervals of the files up to the first bad name. *)
Fixpoint file_intervals (files : list bytes) : list interval :=
  match files with
  | [] => []
  | f :: fs => match parse_file f with None => [] | Some iv => iv :: file_intervals fs end
  end.
Lemma parse_file_valid f iv : parse_file f = Some iv -> in_uint iv.
Proof. unfold parse_file. intros Hq. apply parse_interval_iff in Hq as (a & b & _ & _ & _ & _ & _ & _ & Hu). exact Hu. Qed.
Lemma add_files_ok key files : forall c, strong c -> key <> [] -> Forall below_max (file_intervals files) ->
  strong (fst (add_files key files c)) /\
  (forall k i, key_covers (fst (add_files key files c)) k i <-> key_covers c k i \/ (k = key /\ covers (file_intervals files) i)) /\
  (snd (add_files key files c) = true <-> forall f, In f files -> parse_file f <> None).
Proof.
  induction files as [|f fs IH]; intros c Hs Hk Hm; cbn [add_files file_intervals] in *.
  - split; [exact Hs|]. split; [|cbn; split; [intros _ f [] | reflexivity]].
    intros k i. split; [auto|]. intros [Hc|[_ Hc]]; [exact Hc | destruct (covers_nil _ Hc)].
  - destruct (parse_file f) as [iv|] eqn:Hp.
    + inversion Hm as [|? ? Hmi Hm']; subst. pose proof (parse_file_valid f iv Hp) as Hu. unfold in_uint in Hu.
      destruct (add_completed_ok c key iv Hs Hk ltac:(lia) Hmi) as (Hs' & Hc').
      destruct (IH (add_completed c key iv) Hs' Hk Hm') as (H1 & H2 & H3). split; [exact H1|]. split.
      * intros k i. rewrite H2, Hc', covers_cons. tauto.
      * rewrite H3. split; intros Hall f' Hf'; [destruct Hf' as [<-|Hf']; [congruence | auto] | apply Hall; right; exact Hf'].
    + split; [exact Hs|]. split.
      * intros k i. split; [auto|]. intros [Hc|[_ Hc]]; [exact Hc | destruct (covers_nil _ Hc)].
      * cbn. split; [discriminate|]. intros Hall. exfalso. apply (Hall f); [left; reflexivity | exact Hp].
Qed.

(** ** Histories. The specification keeps two sets of (key, interval): what is in memory and what is on disk. *)
Inductive event :=
| EOpen (ok : bool)
| ECommit (ok : bool) (key : bytes) (files : list bytes) (coalesced smt : bool)
| ECtSize (ok : bool) (size : Z).
Definition run_event (e : event) (j : journal) : option journal :=
  match e with
  | EOpen ok => match open_journal ok (disk j) with None => None | Some (j', _) => Some j' end
  | ECommit ok key files c s => Some (fst (commit_progress ok key files c s j))
  | ECtSize ok size => Some (fst (commit_ct_size ok size j))
  end.
Fixpoint run_events (es : list event) (j : journal) : option journal :=
  match es with
  | [] => Some j
  | e :: es' => match run_event e j with None => None | Some j' => run_events es' j' end
  end.
Record spec := mk_spec { s_open : bool; s_mem : list (bytes * interval); s_disk : list (bytes * interval) }.
Definition spec_event (e : event) (s : spec) : spec :=
  match e with
  | EOpen _ => mk_spec true (s_disk s) (s_disk s)
  | ECommit ok key files _ _ =>
      if s_open s then
        let m := s_mem s ++ map (pair key) (file_intervals files) in
        mk_spec true m (if ok && forallb (fun f => match parse_file f with None => false | Some _ => true end) files then m else s_disk s)
      else s
  | ECtSize ok _ => if s_open s then mk_spec true (s_mem s) (if ok then s_mem s else s_disk s) else s
  end.
Definition spec_events (es : list event) (s : spec) : spec := fold_left (fun s e => spec_event e s) es s.
Definition in_set (l : list (bytes * interval)) (k : bytes) (i : N) : Prop := exists iv, In (k, iv) l /\ (iv_s iv <= i <= iv_e iv)%N.
Definition event_ok (e : event) : Prop :=
  match e with ECommit _ key files _ _ => key <> [] /\ Forall below_max (file_intervals files) | _ => True end.

Definition jobs_ok (jobs : list job) : Prop := Forall (fun j => strong (j_completed j)) jobs.
Definition jobs_cover (jobs : list job) (k : bytes) (i : N) : Prop := key_covers (j_completed (last_job jobs)) k i.
Record JInv (j : journal) (s : spec) : Prop := {
  ji_mem : jobs_ok (mem j);
  ji_cov : forall k i, jobs_cover (mem j) k i <-> in_set (s_mem s) k i;
  ji_open : s_open s = true <-> mem j <> [];
  ji_disk : exists jobs, disk j = map encode_job jobs /\ jobs_ok jobs /\ forall k i, jobs_cover jobs k i <-> in_set (s_disk s) k i
}.

Lemma last_last_job l x : last_job (l ++ [x]) = x.
Proof. unfold last_job. apply last_last. Qed.
Lemma last_set_last l x : last_job (set_last l x) = x.
Proof. apply last_last_job. Qed.
Lemma jobs_ok_last jobs : jobs_ok jobs -> strong (j_completed (last_job jobs)).
Proof.
  intros Hj. destruct jobs as [|j0 jobs0] eqn:Ej.
  - intros k l [].
  - destruct (exists_last (l := j0 :: jobs0)) as (l & x & Hl); [discriminate|]. rewrite Hl in *. rewrite last_last_job. apply Forall_app in Hj as [_ Hx]. inversion Hx; assumption.
Qed.

Lemma jobs_ok_set_last l x : jobs_ok l -> strong (j_completed x) -> jobs_ok (set_last l x).
Proof.
  intros Hl Hx. apply Forall_app. split; [|constructor; [exact Hx | constructor]].
  unfold jobs_ok in *. rewrite Forall_forall in *. intros j Hj. apply Hl.
  destruct l as [|j0 l0]; [destruct Hj|]. rewrite (app_removelast_last (l := j0 :: l0) j0) by discriminate. apply in_or_app. left. exact Hj.
Qed.
Lemma read_back jobs : jobs_ok jobs -> all_some (map decode_job (map encode_job jobs)) = Some jobs.
Proof.
  intros Hj. apply all_some_id. intros j Hi. apply decode_encode_job, strong_good. unfold jobs_ok in Hj. rewrite Forall_forall in Hj. auto.
Qed.
Lemma write_inv ok m d s (Hm : jobs_ok m) (Hc : forall k i, jobs_cover m k i <-> in_set (s_mem s) k i)
  (Ho : s_open s = true <-> m <> [])
  (Hd : exists jobs, d = map encode_job jobs /\ jobs_ok jobs /\ forall k i, jobs_cover jobs k i <-> in_set (s_disk s) k i) :
  JInv (fst (write ok (mk_journal m d))) (mk_spec (s_open s) (s_mem s) (if ok then s_mem s else s_disk s)).
Proof.
  unfold write. destruct ok; cbn [fst mem disk]; constructor; cbn [mem disk s_open s_mem s_disk]; auto.
  exists m. auto.
Qed.

Theorem run_event_inv e j s : event_ok e -> JInv j s -> exists j', run_event e j = Some j' /\ JInv j' (spec_event e s).
Proof.
  intros He HJ. pose proof HJ as [Hm Hc Ho Hd]. destruct e as [ok|ok key files co sm|ok size]; cbn [run_event spec_event].
  - destruct Hd as (jobs & Hdq & Hj & Hcov). unfold open_journal. rewrite Hdq, read_back by exact Hj.
    destruct (write ok _) as [j' b] eqn:Hw. exists j'. split; [reflexivity|].
    replace j' with (fst (write ok (mk_journal (jobs ++ [last_job jobs]) (map encode_job jobs)))) by (rewrite Hw; reflexivity).
    pose proof (write_inv ok (jobs ++ [last_job jobs]) (map encode_job jobs) (mk_spec true (s_disk s) (s_disk s))) as Hwi. cbn [s_open s_mem s_disk] in Hwi.
    replace (if ok then s_disk s else s_disk s) with (s_disk s) in Hwi by (destruct ok; reflexivity). apply Hwi.
    + apply Forall_app. split; [exact Hj|]. constructor; [|constructor]. apply jobs_ok_last. exact Hj.
    + intros k i. unfold jobs_cover. rewrite last_last_job. apply Hcov.
    + split; [destruct jobs; discriminate | reflexivity].
    + exists jobs. auto.
  - destruct He as [Hk Hb]. eexists. split; [reflexivity|]. unfold commit_progress.
    destruct (mem j) as [|j0 m0] eqn:Em.
    + cbn [fst]. destruct (s_open s) eqn:Hso; [exfalso; apply Ho; reflexivity | exact HJ].
    + rewrite <- Em in *. assert (Hso : s_open s = true) by (apply Ho; rewrite Em; discriminate). rewrite Hso.
      set (cur := last_job (mem j)). pose proof (jobs_ok_last (mem j) Hm) as Hcur.
      destruct (add_files_ok key files (j_completed cur) Hcur Hk Hb) as (Ha1 & Ha2 & Ha3).
      destruct (add_files key files (j_completed cur)) as [c good] eqn:Haf. cbn [fst snd] in *.
      assert (Hgood : forallb (fun f => match parse_file f with None => false | Some _ => true end) files = good).
      { apply eq_true_iff_eq. rewrite Ha3, forallb_forall. split; intros Hall f Hf; specialize (Hall f Hf); destruct (parse_file f); congruence. }
      rewrite Hgood.
      assert (Hcov : forall a b d, forall k i, jobs_cover (set_last (mem j) (mk_job a b d c)) k i <-> in_set (s_mem s ++ map (pair key) (file_intervals files)) k i).
      { intros a b d k i. unfold jobs_cover. rewrite last_set_last. cbn [j_completed]. rewrite Ha2. fold cur in Hc. unfold jobs_cover in Hc. fold cur in Hc.
        rewrite Hc. unfold in_set. split.
        - intros [(iv & Hi & Hr)|[-> (iv & Hi & Hr)]]; exists iv; (split; [|exact Hr]); apply in_or_app; [auto|]. right. apply in_map. exact Hi.
        - intros (iv & Hi & Hr). apply in_app_or in Hi as [Hi|Hi]; [left; exists iv; auto|]. apply in_map_iff in Hi as (iv' & Hq & Hi'). injection Hq as -> ->.
          right. split; [reflexivity|]. exists iv. auto. }
      assert (Hne : forall x, set_last (mem j) x <> []) by (intros x Hx; apply (f_equal (@length _)) in Hx; unfold set_last in Hx; rewrite app_length in Hx; cbn in Hx; lia).
      destruct good.
      * rewrite andb_true_r.
        pose proof (write_inv ok (set_last (mem j) (mk_job (co || sm) sm (j_ctsize cur) c)) (disk j)
          (mk_spec true (s_mem s ++ map (pair key) (file_intervals files)) (s_disk s))) as Hw. cbn [s_open s_mem s_disk] in Hw. apply Hw; auto.
        -- apply jobs_ok_set_last; assumption.
        -- split; auto.
      * rewrite andb_false_r. cbn [fst]. constructor; cbn [mem disk s_open s_mem s_disk]; auto.
        -- apply jobs_ok_set_last; assumption.
        -- split; auto.
  - eexists. split; [reflexivity|]. unfold commit_ct_size. destruct (mem j) as [|j0 m0] eqn:Em.
    + cbn [fst]. destruct (s_open s) eqn:Hso; [exfalso; apply Ho; reflexivity | exact HJ].
    + rewrite <- Em in *. assert (Hso : s_open s = true) by (apply Ho; rewrite Em; discriminate). rewrite Hso.
      pose proof (write_inv ok (set_last (mem j) (mk_job (j_coalesced (last_job (mem j))) (j_smt (last_job (mem j))) size (j_completed (last_job (mem j))))) (disk j) s) as Hw.
      rewrite Hso in Hw. apply Hw; auto.
      * apply jobs_ok_set_last; [exact Hm|]. apply jobs_ok_last. exact Hm.
      * intros k i. unfold jobs_cover. rewrite last_set_last. apply Hc.
      * split; auto. intros _ Hx. apply (f_equal (@length _)) in Hx. unfold set_last in Hx. rewrite app_length in Hx. cbn in Hx. lia.
Qed.
Theorem run_events_inv es : forall j s, Forall event_ok es -> JInv j s -> exists j', run_events es j = Some j' /\ JInv j' (spec_events es s).
Proof.
  induction es as [|e es IH]; intros j s He Hi; cbn [run_events spec_events fold_left].
  - exists j. auto.
  - inversion He as [|? ? He1 He2]; subst. destruct (run_event_inv e j s He1 Hi) as (j' & -> & Hi').
    apply IH; assumption.
Qed.
Definition fresh : journal := mk_journal [] [].
Lemma fresh_inv : JInv fresh (mk_spec false [] []).
Proof.
  constructor; cbn [mem disk s_open s_mem s_disk].
  - constructor.
  - intros k i. split; [intros (l & Hq & _); discriminate | intros (iv & [] & _)].
  - split; [discriminate | intros Hx; exfalso; apply Hx; reflexivity].
  - exists []. split; [reflexivity|]. split; [constructor|]. intros k i. split; [intros (l & Hq & _); discriminate | intros (iv & [] & _)].
Qed.

(** ** Pending files *)
Theorem pending_ok key files c : strong c -> (forall f, In f files -> parse_file f <> None) ->
  exists sel, pending_files key files c = Some (filter sel files) /\
  forall f iv, In f files -> parse_file f = Some iv ->
    (sel f = true <-> exists i, (iv_s iv <= i <= iv_e iv)%N /\ ~ key_covers c key i).
Proof.
  intros Hs Hall.
  exists (fun f => match parse_file f with None => true | Some iv => negb (contains_completed c key iv) end). split.
  - induction files as [|f fs IH]; [reflexivity|]. cbn [pending_files filter].
    destruct (parse_file f) as [iv|] eqn:Hp; [|exfalso; apply (Hall f); [left; reflexivity | exact Hp]].
    rewrite IH by (intros f' Hf'; apply Hall; right; exact Hf'). destruct (contains_completed c key iv); reflexivity.
  - intros f iv Hf Hp. rewrite Hp. pose proof (parse_file_valid f iv Hp) as Hu. unfold in_uint in Hu. rewrite negb_true_iff.
    destruct (get_key key c) as [l|] eqn:Hk.
    + destruct (Hs key l (get_key_In _ _ _ Hk)) as (_ & Hc & _). pose proof (contains_ok l key c iv Hk Hc ltac:(lia)) as Hco. split.
      * intros Hn. destruct (Hc) as [Hss Hff].
        (* find the first uncovered index: either the start, or just after the interval containing the start *)
        assert (Hx : ~ (forall i, (iv_s iv <= i <= iv_e iv)%N -> covers l i)) by (intros Hx; apply Hco in Hx; congruence).
        rewrite covers_interval in Hx by (auto; lia).
        assert (Hdec : (exists x, In x l /\ (iv_s x <= iv_s iv <= iv_e x)%N) \/ ~ covers l (iv_s iv)).
        { clear. induction l as [|y l IH]; [right; apply covers_nil|]. destruct IH as [(x & Hx & Hi)|IH].
          - left. exists x. split; [right; exact Hx | exact Hi].
          - destruct (N.le_gt_cases (iv_s y) (iv_s iv)) as [H1|H1]; [destruct (N.le_gt_cases (iv_s iv) (iv_e y)) as [H2|H2]|].
            + left. exists y. split; [left; reflexivity | lia].
            + right. rewrite covers_cons. intros [?|?]; [lia | auto].
            + right. rewrite covers_cons. intros [?|?]; [lia | auto]. }
        destruct Hdec as [(x & Hxl & Hxi)|Hd].
        -- exists (iv_e x + 1)%N. destruct (N.le_gt_cases (iv_e iv) (iv_e x)) as [H1|H1]; [exfalso; apply Hx; exists x; split; [exact Hxl | lia]|].
           split; [lia|]. intros (l' & Hq & y & Hy & Hyi). rewrite Hk in Hq. injection Hq as <-.
           apply in_split in Hxl as (l1 & l2 & ->). apply ssorted_app in Hss as (_ & Hs2 & Hs12). inversion Hs2 as [|? ? _ Hg]; subst. rewrite Forall_forall in Hg.
           apply in_app_or in Hy as [Hy|[<-|Hy]].
           ++ specialize (Hs12 y x Hy (or_introl eq_refl)). unfold gap in Hs12. lia.
           ++ lia.
           ++ specialize (Hg y Hy). unfold gap in Hg. lia.
        -- exists (iv_s iv). split; [lia|]. intros (l' & Hq & Hcv). rewrite Hk in Hq. injection Hq as <-. auto.
      * intros (i & Hi & Hn). destruct (contains_completed c key iv) eqn:Hb; [|reflexivity]. exfalso. apply Hn. exists l. split; [exact Hk|].
        apply Hco; auto.
    + split; [|unfold contains_completed; rewrite Hk; reflexivity]. intros _. exists (iv_s iv). split; [lia|]. intros (l & Hq & _). congruence.
Qed.

(** ** Recorded size *)
Theorem ct_size_ok c key size : strong c -> completed_ct_size c key = Some size ->
  (forall iv l, get_key key c = Some (iv :: l) -> iv_s iv = 0%N) ->
  forall i, (Z.of_N i < size)%Z -> key_covers c key i.
Proof.
  intros Hs Hq H0 i Hi. unfold completed_ct_size in Hq. destruct (get_key key c) as [[|iv l]|] eqn:Hk; try discriminate.
  injection Hq as <-. specialize (H0 iv l eq_refl). exists (iv :: l). split; [exact Hk|]. exists iv. split; [left; reflexivity|].
  rewrite H0. split; [lia|]. destruct (Hs key (iv :: l) (get_key_In _ _ _ Hk)) as (_ & Hc & Hm). inversion Hm as [|? ? Hm0 _]; subst. unfold below_max in Hm0.
  unfold int64_wrap in Hi. set (e := Z.of_N (iv_e iv)) in *. 
  assert (He : (0 <= e < 2 ^ 64 - 1)%Z) by (unfold e; lia).
  destruct (Z.lt_ge_cases e (2 ^ 63)) as [H1|H1].
  - rewrite (Z.mod_small (e + 2 ^ 63)) in Hi by lia. replace (e + 2 ^ 63 - 2 ^ 63 + 1 + 2 ^ 63)%Z with (e + 1 + 2 ^ 63)%Z in Hi by lia.
    destruct (Z.eq_dec e (2 ^ 63 - 1)) as [H2|H2].
    + rewrite H2 in Hi. change ((2 ^ 63 - 1 + 1 + 2 ^ 63) mod 2 ^ 64)%Z with 0%Z in Hi. lia.
    + rewrite Z.mod_small in Hi by lia. lia.
  - assert (Hmod : ((e + 2 ^ 63) mod 2 ^ 64 = e - 2 ^ 63)%Z).
    { replace (e + 2 ^ 63)%Z with (e - 2 ^ 63 + 1 * 2 ^ 64)%Z by lia. rewrite Z.mod_add by lia. apply Z.mod_small. lia. }
    rewrite Hmod in Hi. replace (e - 2 ^ 63 - 2 ^ 63 + 1 + 2 ^ 63)%Z with (e - 2 ^ 63 + 1)%Z in Hi by lia.
    rewrite Z.mod_small in Hi by lia. lia.
Qed.
(** And it is the whole prefix: the index after the recorded size is not covered (sizes below 2^63). *)
Theorem ct_size_exact c key size iv l : strong c -> completed_ct_size c key = Some size ->
  get_key key c = Some (iv :: l) -> (Z.of_N (iv_e iv) < 2 ^ 63 - 1)%Z ->
  size = (Z.of_N (iv_e iv) + 1)%Z /\ ~ key_covers c key (iv_e iv + 1).
Proof.
  intros Hs Hq Hk He. unfold completed_ct_size in Hq. rewrite Hk in Hq. injection Hq as <-. split.
  - unfold int64_wrap. rewrite (Z.mod_small (Z.of_N (iv_e iv) + 2 ^ 63)) by lia. rewrite Z.mod_small by lia. lia.
  - intros (l' & Hq & x & Hx & Hi). rewrite Hk in Hq. injection Hq as <-.
    destruct (Hs key (iv :: l) (get_key_In _ _ _ Hk)) as (_ & Hc & _). apply canonical_cons in Hc as (_ & _ & Hg).
    destruct Hx as [<-|Hx]; [lia|]. specialize (Hg x Hx). unfold gap in Hg. lia.
Qed.
