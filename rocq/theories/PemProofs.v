(** Proofs about PemModel: the blocks of a text, whatever part of it is in the buffer. *)
From Coq Require Import Strings.String.
From Verif Require Import Base BaseLemmas UtilModel DbModel LoadModel LoadProofs PemModel.
Local Open Scope list_scope.
Local Notation b_ s := (list_byte_of_string s%string).

(** ** Prefixes and places *)
Lemma byte_same (a : byte) : Byte.eqb a a = true.
Proof. apply byte_eqb_eq. reflexivity. Qed.
Lemma prefix_app p s : has_prefix p (p ++ s) = true.
Proof. induction p as [|a p IH]; cbn; [reflexivity|]. rewrite byte_same. exact IH. Qed.
Lemma prefix_iff p s : has_prefix p s = true <-> exists t, s = p ++ t.
Proof.
  revert s. induction p as [|a p IH]; intros s; cbn.
  - split; eauto.
  - destruct s as [|b s]; [split; [discriminate|intros [t E]; discriminate]|]. rewrite andb_true_iff, IH. split.
    + intros [E [t ->]]. apply byte_eqb_eq in E as ->. eauto.
    + intros [t E]. injection E as -> ->. rewrite byte_same. eauto.
Qed.
Lemma suffix_app p s : has_suffix p (s ++ p) = true.
Proof. unfold has_suffix. rewrite rev_app_distr. apply prefix_app. Qed.
Lemma suffix_iff p s : has_suffix p s = true <-> exists t, s = t ++ p.
Proof.
  unfold has_suffix. rewrite prefix_iff. split; intros [t E].
  - exists (rev t). rewrite <- (rev_involutive s), E, rev_app_distr, rev_involutive. reflexivity.
  - exists (rev t). rewrite E, rev_app_distr. reflexivity.
Qed.
Lemma neq_false (a b : byte) : a <> b -> Byte.eqb a b = false.
Proof. intros N. destruct (Byte.eqb a b) eqn:E; [apply byte_eqb_eq in E; contradiction|reflexivity]. Qed.

Lemma no_prefix p s : hd x00 s <> dash -> has_prefix (dash :: p) s = false.
Proof. destruct s as [|c s]; intros N; [reflexivity|]. cbn [has_prefix]. rewrite (neq_false dash c) by (intros <-; apply N; reflexivity). reflexivity. Qed.

Section Index.
  Variable p : bytes.
  Let pat := newline_b :: dash :: p.
  Lemma idx_nodash s : ~ In dash s -> index pat s = None.
  Proof.
    induction s as [|c s IH]; intros N; [reflexivity|]. cbn [index].
    replace (has_prefix pat (c :: s)) with false; [|symmetry].
    - rewrite IH by (intros X; apply N; right; exact X). reflexivity.
    - unfold pat. cbn [has_prefix]. destruct s as [|d s]; [now rewrite andb_false_r|].
      rewrite (neq_false dash d); [now rewrite andb_false_r|]. intros <-. apply N. right; left; reflexivity.
  Qed.
  Lemma idx_nonl s : ~ In newline_b s -> index pat s = None.
  Proof.
    induction s as [|c s IH]; intros N; [reflexivity|]. cbn [index]. unfold pat at 1. cbn [has_prefix].
    rewrite (neq_false newline_b c) by (intros <-; apply N; left; reflexivity). cbn [andb].
    rewrite IH by (intros X; apply N; right; exact X). reflexivity.
  Qed.
  Lemma idx_step x c y : ~ In dash x -> c <> dash -> index pat (x ++ c :: y) = option_map (fun i => length x + i) (index pat (c :: y)).
  Proof.
    induction x as [|a x IH]; intros N Nc; [cbn [app length]; destruct (index pat (c :: y)); reflexivity|].
    specialize (IH (fun X => N (or_intror X)) Nc). destruct (index pat (c :: y)) as [z|] eqn:Z; clear Z.
    all: cbn [app index]; replace (has_prefix pat (a :: x ++ c :: y)) with false; [rewrite IH; reflexivity|].
    all: symmetry; unfold pat; cbn [has_prefix]; destruct x as [|d x]; cbn [app];
      [rewrite (neq_false dash c) by congruence; now rewrite andb_false_r|].
    all: rewrite (neq_false dash d); [now rewrite andb_false_r|]; intros <-; apply N; right; left; reflexivity.
  Qed.
  Lemma idx_hit x y : ~ In dash x -> has_prefix (dash :: p) y = true -> index pat (x ++ newline_b :: y) = Some (length x).
  Proof.
    intros N P. rewrite idx_step by (auto; discriminate). cbn [index].
    assert (E : has_prefix pat (newline_b :: y) = true) by (unfold pat; cbn [has_prefix]; rewrite byte_same; exact P).
    rewrite E. cbn [option_map]. f_equal. lia.
  Qed.
  Lemma idx_miss x y : ~ In dash x -> has_prefix (dash :: p) y = false -> index pat y = None -> index pat (x ++ newline_b :: y) = None.
  Proof.
    intros N P I. rewrite idx_step by (auto; discriminate). cbn [index].
    assert (E : has_prefix pat (newline_b :: y) = false) by (unfold pat; cbn [has_prefix]; rewrite byte_same; exact P).
    rewrite E, I. reflexivity.
  Qed.
End Index.

(** ** Lines *)
Lemma line_end_app u s : ~ In newline_b u -> line_end (u ++ s) = (u ++ fst (line_end s), snd (line_end s)).
Proof.
  induction u as [|c u IH]; intros N; [cbn; now destruct (line_end s)|]. cbn [app line_end].
  rewrite (neq_false c newline_b) by (intros ->; apply N; left; reflexivity).
  rewrite IH by (intros X; apply N; right; exact X). reflexivity.
Qed.
Lemma trim_last s c : Byte.eqb c x20 || Byte.eqb c x09 = false -> trim_right (s ++ [c]) = s ++ [c].
Proof. intros E. induction s as [|a s IH]; cbn [app trim_right]; [now rewrite E|]. rewrite IH. destruct s; reflexivity. Qed.
Lemma trim_prefix s : exists t, s = trim_right s ++ t.
Proof.
  induction s as [|c s [t E]]; [exists []; reflexivity|]. cbn [trim_right]. destruct (trim_right s) as [|d r].
  - destruct (_ || _); [exists (c :: s); reflexivity|exists s; reflexivity].
  - exists t. cbn. f_equal. exact E.
Qed.
Lemma drop_cr_last s c : Byte.eqb c x0d = false -> drop_cr (s ++ [c]) = s ++ [c].
Proof. intros E. unfold drop_cr. rewrite rev_app_distr. cbn [rev app]. now rewrite E. Qed.
Lemma drop_cr_prefix s : exists t, s = drop_cr s ++ t.
Proof.
  unfold drop_cr. destruct (rev s) as [|c r] eqn:E; [exists []; now rewrite app_nil_r|]. destruct (Byte.eqb c x0d); [|exists []; now rewrite app_nil_r].
  exists [c]. rewrite <- (rev_involutive s), E. reflexivity.
Qed.
Lemma get_line_prefix s : exists t, fst (line_end s) = fst (get_line s) ++ t.
Proof.
  unfold get_line. destruct (line_end s) as [l [r|]]; cbn [fst].
  - destruct (drop_cr_prefix l) as [t E], (trim_prefix (drop_cr l)) as [t' E']. exists (t' ++ t). rewrite app_assoc, <- E'. exact E.
  - apply trim_prefix.
Qed.

(** ** One block *)
Definition good_type (t : bytes) : Prop := ~ In dash t /\ ~ In newline_b t /\ ~ In x3a t.
Definition head_line (t : bytes) : bytes := t ++ dashes.
Lemma five : dashes = [x2d; x2d; x2d; x2d] ++ [x2d].
Proof. reflexivity. Qed.
Lemma head_nonl t : good_type t -> ~ In newline_b (head_line t).
Proof. intros (_ & N & _) X. apply in_app_or in X as [X|X]; [auto|]. cbn in X. intuition discriminate. Qed.
Lemma get_head t s : good_type t -> get_line (head_line t ++ newline_b :: s) = (head_line t, s).
Proof.
  intros G. unfold get_line. rewrite line_end_app by (apply head_nonl; exact G). cbn [line_end]. rewrite byte_same. cbn [fst snd]. rewrite app_nil_r.
  unfold head_line. rewrite five, app_assoc, drop_cr_last, trim_last by reflexivity. reflexivity.
Qed.
Lemma get_unfinished u : ~ In newline_b u -> get_line u = (trim_right u, []).
Proof. intros N. unfold get_line. rewrite <- (app_nil_r u), line_end_app by exact N. cbn. now rewrite !app_nil_r. Qed.

Lemma lines64_chars f s c : In c (lines64 f s) -> c = newline_b \/ In c s.
Proof.
  revert s. induction f as [|f IH]; intros s; [intros []|]. destruct s as [|a s]; [intros []|]. cbn [lines64]. intros X.
  apply in_app_or in X as [X|[X|X]]; [right; rewrite <- (firstn_skipn 64 (a :: s)); apply in_or_app; auto|left; auto|].
  apply IH in X as [X|X]; [auto|]. right. rewrite <- (firstn_skipn 64 (a :: s)). apply in_or_app. auto.
Qed.
Lemma body_chars raw c : In c (pem_body raw) -> c = newline_b \/ b64_text c = true.
Proof.
  unfold pem_body. intros X. apply lines64_chars in X as [X|X]; [auto|]. right. pose proof (b64_encode_text raw) as T. rewrite forallb_forall in T. auto.
Qed.
Lemma body_nodash raw : ~ In dash (pem_body raw).
Proof. intros X. apply body_chars in X as [X|X]; discriminate. Qed.
Lemma body_nocolon raw : ~ In x3a (pem_body raw).
Proof. intros X. apply body_chars in X as [X|X]; discriminate. Qed.
Lemma lines64_shape f s : length s <= f -> lines64 f s = [] \/ exists b, lines64 f s = b ++ [newline_b].
Proof.
  revert s. induction f as [|f IH]; intros s L; [left; reflexivity|]. destruct s as [|a s]; [left; reflexivity|]. right. cbn [lines64].
  destruct (IH (skipn 64 (a :: s))) as [E|[b E]].
  - rewrite skipn_length. cbn [length] in *. lia.
  - rewrite E. exists (firstn 64 (a :: s)). reflexivity.
  - rewrite E. exists (firstn 64 (a :: s) ++ newline_b :: b). rewrite <- app_assoc. reflexivity.
Qed.
Lemma body_shape raw : pem_body raw = [] \/ exists b, pem_body raw = b ++ [newline_b].
Proof. apply lines64_shape. lia. Qed.
Lemma lines64_filter f s : length s <= f -> forallb b64_text s = true -> filter (fun c => negb (pem_blank c)) (lines64 f s) = s.
Proof.
  revert s. induction f as [|f IH]; intros s L T; [destruct s; [reflexivity|cbn in L; lia]|]. destruct s as [|a s]; [reflexivity|]. cbn [lines64].
  rewrite filter_app. cbn [filter]. replace (negb (pem_blank newline_b)) with false by reflexivity.
  rewrite <- (firstn_skipn 64 (a :: s)), forallb_app in T. apply andb_prop in T as [T1 T2].
  rewrite IH; [|rewrite skipn_length; cbn [length] in *; lia|exact T2].
  rewrite <- (firstn_skipn 64 (a :: s)) at 3. f_equal. induction (firstn 64 (a :: s)) as [|c l IHl]; [reflexivity|].
  cbn [forallb] in T1. apply andb_prop in T1 as [Tc T1]. cbn [filter]. rewrite IHl by exact T1.
  replace (pem_blank c) with false; [reflexivity|]. destruct c; try reflexivity; discriminate Tc.
Qed.
Lemma body_base64 raw : pem_base64 (pem_body raw) = Some raw.
Proof. unfold pem_base64, pem_body. rewrite lines64_filter; [apply b64_round_trip|lia|apply b64_encode_text]. Qed.
Lemma blank_tail b : pem_base64 (b ++ [newline_b]) = pem_base64 b.
Proof. unfold pem_base64. rewrite filter_app. cbn. now rewrite app_nil_r. Qed.

(** The first line of what follows the head line has no colon. *)
Lemma no_header s : (forall c, In c (fst (line_end s)) -> c <> x3a) -> s <> [] -> skip_headers (S (length s)) false s = Some (false, s).
Proof.
  intros N E. destruct s as [|a s]; [contradiction|]. cbn [skip_headers]. destruct (get_line (a :: s)) as [l n] eqn:G.
  replace (existsb is_colon l) with false; [reflexivity|]. symmetry. apply not_true_is_false. intros X. apply existsb_exists in X as (c & Ic & Ec).
  apply byte_eqb_eq in Ec. subst c. destruct (get_line_prefix (a :: s)) as [t Et]. apply (N x3a); [|reflexivity]. rewrite Et, G. apply in_or_app. auto.
Qed.
Lemma line_chars s c : In c (fst (line_end s)) -> In c s.
Proof.
  induction s as [|a s IH]; [intros []|]. cbn [line_end]. destruct (Byte.eqb a newline_b); [intros []|]. destruct (line_end s) as [l r]. cbn in *.
  intros [->|X]; auto.
Qed.
Lemma line_of_body b x c : ~ In x3a b -> In c (fst (line_end (b ++ newline_b :: x))) -> c <> x3a.
Proof.
  revert x. induction b as [|a b IH]; intros x N; cbn [app line_end]; [rewrite byte_same; intros []|].
  destruct (Byte.eqb a newline_b); [intros []|]. destruct (line_end (b ++ newline_b :: x)) as [l r] eqn:E. cbn. intros [->|X].
  - intros ->. apply N. left; reflexivity.
  - apply (IH x); [intros Y; apply N; right; exact Y|]. rewrite E. exact X.
Qed.

(** What follows the line of the end: nothing, or a line break. *)
Definition closes (x y : bytes) : Prop := x = [] /\ y = [] \/ x = newline_b :: y.
Lemma closes_line x y : closes x y -> get_line x = ([], y).
Proof. intros [[-> ->]| ->]; reflexivity. Qed.
Lemma closes_end x y : closes x y -> fst (line_end x) = [].
Proof. intros [[-> ->]| ->]; [reflexivity|]. cbn. reflexivity. Qed.
Lemma closes_rest u x y : ~ In newline_b u -> closes x y -> snd (get_line (u ++ x)) = y.
Proof.
  intros N C. unfold get_line. rewrite line_end_app by exact N. destruct C as [[-> ->]| ->]; cbn; reflexivity.
Qed.
Lemma body_cases raw : pem_body raw = [] \/ exists b, pem_body raw = b ++ [newline_b] /\ ~ In dash b /\ ~ In x3a b.
Proof.
  destruct (body_shape raw) as [E|[b E]]; [left; exact E|right]. exists b. split; [exact E|].
  pose proof (body_nodash raw) as N1. pose proof (body_nocolon raw) as N2. rewrite E in *. split; intros X; [apply N1|apply N2]; apply in_or_app; auto.
Qed.
Definition foot (t : bytes) : bytes := pem_end ++ head_line t.
Lemma foot_nonl t : good_type t -> ~ In newline_b (foot t).
Proof. intros G X. apply in_app_or in X as [X|X]; [cbn in X; intuition discriminate|]. exact (head_nonl t G X). Qed.
Lemma foot_nocolon t : good_type t -> ~ In x3a (foot t).
Proof.
  intros (_ & _ & N) X. apply in_app_or in X as [X|X]; [cbn in X; intuition discriminate|]. apply in_app_or in X as [X|X]; [auto|].
  cbn in X; intuition discriminate.
Qed.
Lemma attempt_full t raw x y : good_type t -> closes x y ->
  attempt_block (head_line t ++ newline_b :: pem_body raw ++ foot t ++ x) = Found t raw y.
Proof.
  intros G C. unfold attempt_block. rewrite get_head by exact G. rewrite (suffix_app dashes t : has_suffix dashes (head_line t) = true). cbn [negb].
  replace (firstn (length (head_line t) - length dashes) (head_line t)) with t.
  2: { unfold head_line. rewrite app_length, Nat.add_sub, firstn_app, Nat.sub_diag, firstn_all. cbn. now rewrite app_nil_r. }
  set (R := pem_body raw ++ foot t ++ x).
  assert (HR : skip_headers (S (length R)) false R = Some (false, R)).
  { apply no_header.
    - intros c Hc. unfold R in Hc. destruct (body_cases raw) as [E|(b & E & _ & N)].
      + rewrite E in Hc. cbn [app] in Hc. rewrite line_end_app in Hc by (apply foot_nonl; exact G). cbn [fst] in Hc. rewrite (closes_end x y C), app_nil_r in Hc.
        intros ->. exact (foot_nocolon t G Hc).
      + rewrite E, <- app_assoc in Hc. cbn [app] in Hc. exact (line_of_body b _ c N Hc).
    - unfold R. destruct (pem_body raw); discriminate. }
  rewrite HR. cbn [negb andb]. clear HR.
  assert (T : forall k z, skipn k R = z -> True) by auto. clear T.
  assert (D : exists ei, (if has_prefix pem_end R then Some (0, length pem_end) else option_map (fun i => (i, i + S (length pem_end))) (index (newline_b :: pem_end) R))
                = Some (ei, length (pem_body raw) + length pem_end) /\ pem_base64 (firstn ei R) = Some raw /\
                  snd (get_line (skipn (ei + length pem_end) R)) = y).
  { unfold R. destruct (body_cases raw) as [E|(b & E & Nd & _)].
    - pose proof (body_base64 raw) as B. rewrite E in *. cbn [app length]. unfold foot at 1. rewrite <- app_assoc, prefix_app. exists 0. split; [reflexivity|]. split; [exact B|].
      unfold foot. rewrite <- app_assoc. change (0 + length pem_end) with (length pem_end). rewrite skipn_app, skipn_all, Nat.sub_diag. cbn [app skipn].
      apply closes_rest; [apply head_nonl; exact G|exact C].
    - rewrite E, <- app_assoc. cbn [app]. replace (has_prefix pem_end (b ++ newline_b :: foot t ++ x)) with false.
      2: { symmetry. apply (no_prefix (tl pem_end)). destruct b; [discriminate|]. intros X. apply Nd. left. cbn in X. congruence. }
      pose proof (idx_hit (tl pem_end) b (foot t ++ x) Nd) as Hit. change (dash :: tl pem_end) with pem_end in Hit. rewrite Hit; [clear Hit|unfold foot; rewrite <- app_assoc; apply prefix_app].
      exists (length b). split; [cbn [option_map]; f_equal; f_equal; rewrite app_length; cbn [length]; lia|]. split.
      + rewrite firstn_app, Nat.sub_diag, firstn_all. cbn [firstn]. rewrite app_nil_r, <- blank_tail, <- E. apply body_base64.
      + replace (b ++ newline_b :: foot t ++ x) with ((b ++ newline_b :: removelast pem_end) ++ ([x20] ++ head_line t) ++ x).
        2: { rewrite <- !app_assoc. cbn [app]. f_equal. }
        rewrite skipn_app. rewrite skipn_all2 by (rewrite app_length; cbn; lia).
        replace (length b + length pem_end - length (b ++ newline_b :: removelast pem_end)) with 0 by (rewrite app_length; cbn; lia). cbn [skipn app].
        apply (closes_rest (x20 :: head_line t) x y); [|exact C]. intros [X|X]; [discriminate|]. exact (head_nonl t G X). }
  destruct D as (ei & D1 & D2 & D3). rewrite D1.
  replace (skipn (length (pem_body raw) + length pem_end) R) with (head_line t ++ x).
  2: { unfold R, foot. rewrite <- app_assoc, app_assoc. rewrite skipn_app, skipn_all2 by (rewrite app_length; lia). rewrite app_length, Nat.sub_diag. reflexivity. }
  replace (length t + length dashes) with (length (head_line t)) by (unfold head_line; apply app_length).
  rewrite firstn_app, Nat.sub_diag, firstn_all. cbn [firstn]. rewrite app_nil_r.
  replace (length (head_line t ++ x) <? length (head_line t)) with false by (symmetry; apply Nat.ltb_ge; rewrite app_length; lia).
  unfold head_line at 1. rewrite prefix_app. unfold head_line at 1. rewrite suffix_app. cbn [andb negb].
  rewrite skipn_app, skipn_all, Nat.sub_diag. cbn [app skipn]. rewrite (closes_line x y C). cbn [fst]. rewrite D2, D3. reflexivity.
Qed.

(** ** The start of a block *)
(** Text between blocks: no dash, and complete lines. *)
Definition lead (j : bytes) : Prop := ~ In dash j /\ (j = [] \/ exists j', j = j' ++ [newline_b]).
Lemma begin_hd : pem_begin = dash :: tl pem_begin. Proof. reflexivity. Qed.
Lemma start_nodash s : ~ In dash s -> find_start s = None.
Proof.
  intros N. unfold find_start. replace (has_prefix pem_begin s) with false.
  - pose proof (idx_nodash (tl pem_begin) s N) as E. change (dash :: tl pem_begin) with pem_begin in E. rewrite E. reflexivity.
  - symmetry. apply (no_prefix (tl pem_begin)). destruct s; [discriminate|]. intros X. apply N. left. cbn in X. congruence.
Qed.
Lemma lead_hd j s : lead j -> j <> [] -> has_prefix pem_begin (j ++ s) = false /\ has_prefix pem_end (j ++ s) = false.
Proof.
  intros [N _] E. destruct j as [|c j]; [contradiction|]. split; [apply (no_prefix (tl pem_begin))|apply (no_prefix (tl pem_end))].
  all: cbn; intros ->; apply N; left; reflexivity.
Qed.
Lemma start_found j s : lead j -> find_start (j ++ pem_begin ++ s) = Some s.
Proof.
  intros L. unfold find_start. destruct L as [N [->|[j' ->]]].
  - cbn [app]. rewrite prefix_app, skipn_app, skipn_all, Nat.sub_diag. reflexivity.
  - rewrite (proj1 (lead_hd (j' ++ [newline_b]) (pem_begin ++ s) (conj N (or_intror (ex_intro _ j' eq_refl))) ltac:(destruct j'; discriminate))).
    rewrite <- app_assoc. cbn [app]. assert (N' : ~ In dash j') by (intros X; apply N, in_or_app; auto).
    pose proof (idx_hit (tl pem_begin) j' (pem_begin ++ s) N' (prefix_app pem_begin s)) as Hit. change (dash :: tl pem_begin) with pem_begin in Hit.
    rewrite Hit. replace (j' ++ newline_b :: pem_begin ++ s) with ((j' ++ newline_b :: pem_begin) ++ s) by (rewrite <- app_assoc; reflexivity).
    rewrite skipn_app, skipn_all2 by (rewrite app_length; cbn; lia). replace (length j' + S (length pem_begin) - length (j' ++ newline_b :: pem_begin)) with 0 by (rewrite app_length; cbn; lia).
    reflexivity.
Qed.
(** After complete lines without dashes, a text without line breaks that does not begin with the start of a block *)
Lemma start_none j q : lead j -> has_prefix pem_begin q = false -> ~ In newline_b q -> find_start (j ++ q) = None.
Proof.
  intros L P N. unfold find_start. pose proof (idx_nonl (tl pem_begin) q N) as E. change (dash :: tl pem_begin) with pem_begin in E.
  destruct (list_eq_dec Byte.byte_eq_dec j []) as [->|Ne].
  - cbn [app]. rewrite P, E. reflexivity.
  - rewrite (proj1 (lead_hd j q L Ne)). destruct L as [Nd [->|[j' ->]]]; [contradiction|].
    assert (N' : ~ In dash j') by (intros X; apply Nd, in_or_app; auto).
    pose proof (idx_miss (tl pem_begin) j' q N' P E) as Miss. change (dash :: tl pem_begin) with pem_begin in Miss. rewrite <- app_assoc. cbn [app]. rewrite Miss. reflexivity.
Qed.

(** ** Decode *)
Definition open_block (t raw : bytes) : bytes := pem_begin ++ head_line t ++ newline_b :: pem_body raw ++ foot t.
Lemma encode_open t raw : pem_encode t raw = open_block t raw ++ [newline_b].
Proof. unfold pem_encode, open_block, foot, head_line. repeat (rewrite <- app_assoc; cbn [app]). reflexivity. Qed.
Lemma decode_full j t raw x y : lead j -> good_type t -> closes x y -> pem_decode (j ++ open_block t raw ++ x) = (Some (t, raw), y).
Proof.
  intros L G C. unfold pem_decode. cbn [decode_loop]. unfold open_block. rewrite <- app_assoc, start_found by exact L.
  rewrite <- app_assoc. cbn [app]. rewrite <- app_assoc, (attempt_full t raw x y G C). reflexivity.
Qed.
Lemma decode_nodash s : ~ In dash s -> pem_decode s = (None, s).
Proof. intros N. unfold pem_decode. cbn [decode_loop]. now rewrite start_nodash. Qed.
Lemma prefix_split (a b u v : bytes) : a ++ b = u ++ v -> (exists w, u = a ++ w /\ b = w ++ v) \/ (exists w, w <> [] /\ a = u ++ w /\ v = w ++ b).
Proof.
  revert u. induction a as [|x a IH]; intros u E; cbn in E.
  - left. exists u. split; [reflexivity|exact E].
  - destruct u as [|y u]; cbn in E.
    + right. exists (x :: a). split; [discriminate|]. split; [reflexivity|]. symmetry. exact E.
    + injection E as -> E. destruct (IH u E) as [(w & -> & ->)|(w & N & -> & ->)]; [left|right]; exists w; auto.
Qed.
Lemma notin_prefix (c : byte) a w u : u = a ++ w -> ~ In c u -> ~ In c a.
Proof. intros -> N X. apply N, in_or_app. auto. Qed.
Lemma head_short t a w : good_type t -> head_line t = a ++ w -> w <> [] -> has_suffix dashes a = false.
Proof.
  intros (N & _) E W. apply not_true_is_false. intros S. apply suffix_iff in S as [u ->]. unfold head_line in E.
  rewrite <- app_assoc in E. apply prefix_split in E as [(v & -> & E)|(v & Nv & -> & E)].
  - apply (f_equal (@length byte)) in E. rewrite !app_length in E. destruct w; [contradiction|]. cbn in E. lia.
  - destruct v as [|c v]; [contradiction|]. cbn in E. injection E as E1 _. apply N, in_or_app. right. left. subst c. reflexivity.
Qed.
Lemma foot_begin t a w : foot t = a ++ w -> has_prefix pem_begin a = false.
Proof. intros E. apply not_true_is_false. intros P. apply prefix_iff in P as [v ->]. cbn in E. discriminate. Qed.
Lemma body_lead raw : lead (pem_body raw).
Proof. split; [apply body_nodash|]. apply body_shape. Qed.
Lemma attempt_short t raw q w : good_type t -> head_line t ++ newline_b :: pem_body raw ++ foot t = q ++ w -> w <> [] ->
  attempt_block q = Nothing \/ exists r, attempt_block q = Again r /\ find_start r = None.
Proof.
  intros G E W. change (newline_b :: pem_body raw ++ foot t) with ([newline_b] ++ pem_body raw ++ foot t) in E.
  symmetry in E. apply prefix_split in E as [(v & E & _)|(v & Nv & -> & E)].
  { assert (Nn : ~ In newline_b q) by (eapply notin_prefix; [exact E|apply head_nonl; exact G]). unfold attempt_block. rewrite get_unfinished by exact Nn.
    destruct (list_eq_dec Byte.byte_eq_dec v []) as [->|Nv].
    - rewrite app_nil_r in E. subst q. unfold head_line. rewrite five, app_assoc, trim_last by reflexivity. rewrite <- app_assoc, <- five, suffix_app. cbn [negb].
      left. reflexivity.
    - right. exists []. split; [|reflexivity]. destruct (trim_prefix q) as [z Ez]. rewrite (head_short t (trim_right q) (z ++ v) G); [reflexivity| |].
      + rewrite app_assoc, <- Ez. exact E.
      + destruct z, v; try discriminate. contradiction. }
  destruct v as [|c q2]; [contradiction|]. cbn [app] in E. injection E as <- E. unfold attempt_block. rewrite get_head by exact G. rewrite (suffix_app dashes t : has_suffix dashes (head_line t) = true). cbn [negb].
  replace (firstn (length (head_line t) - length dashes) (head_line t)) with t.
  2: { unfold head_line. rewrite app_length, Nat.add_sub, firstn_app, Nat.sub_diag, firstn_all. cbn. now rewrite app_nil_r. }
  destruct (list_eq_dec Byte.byte_eq_dec q2 []) as [->|N2]; [left; reflexivity|right]. exists q2.
  rewrite no_header; [|intros c Hc ->|exact N2].
  2: { apply line_chars in Hc. apply (notin_prefix x3a q2 w _ E); [|exact Hc]. intros X. apply in_app_or in X as [X|X]; [exact (body_nocolon raw X)|exact (foot_nocolon t G X)]. }
  cbn [negb andb]. symmetry in E. apply prefix_split in E as [(v & E & _)|(q3 & N3 & -> & E)].
  - assert (Nd : ~ In dash q2) by (eapply notin_prefix; [exact E|apply body_nodash]). split; [|apply start_nodash; exact Nd].
    replace (has_prefix pem_end q2) with false.
    2: { symmetry. apply (no_prefix (tl pem_end)). destruct q2; [discriminate|]. intros X. apply Nd. left. cbn in X. congruence. }
    pose proof (idx_nodash (tl pem_end) q2 Nd) as I. change (dash :: tl pem_end) with pem_end in I. rewrite I. reflexivity.
  - assert (Nn : ~ In newline_b q3) by (eapply notin_prefix; [exact E|apply foot_nonl; exact G]).
    split; [|apply start_none; [apply body_lead|eapply foot_begin; exact E|exact Nn]].
    assert (D : (if has_prefix pem_end (pem_body raw ++ q3) then Some (0, length pem_end)
                 else option_map (fun i => (i, i + S (length pem_end))) (index (newline_b :: pem_end) (pem_body raw ++ q3))) = None \/
                exists ei, (if has_prefix pem_end (pem_body raw ++ q3) then Some (0, length pem_end)
                 else option_map (fun i => (i, i + S (length pem_end))) (index (newline_b :: pem_end) (pem_body raw ++ q3))) =
                 Some (ei, length (pem_body raw) + length pem_end) /\ has_prefix pem_end q3 = true).
    { pose proof (idx_nonl (tl pem_end) q3 Nn) as I. change (dash :: tl pem_end) with pem_end in I.
      destruct (body_cases raw) as [Eb|(b & Eb & Nd & _)].
      - rewrite Eb. cbn [app length]. destruct (has_prefix pem_end q3) eqn:P; [right; exists 0; auto|]. left. rewrite I. reflexivity.
      - rewrite (proj2 (lead_hd (pem_body raw) q3 (body_lead raw) ltac:(rewrite Eb; destruct b; discriminate))). rewrite Eb, <- app_assoc. cbn [app].
        destruct (has_prefix pem_end q3) eqn:P.
        + right. exists (length b). split; [|reflexivity]. pose proof (idx_hit (tl pem_end) b q3 Nd P) as Hit. change (dash :: tl pem_end) with pem_end in Hit. rewrite Hit.
          cbn [option_map]. f_equal. f_equal. rewrite app_length. cbn [length]. lia.
        + left. pose proof (idx_miss (tl pem_end) b q3 Nd P I) as Miss. change (dash :: tl pem_end) with pem_end in Miss. rewrite Miss. reflexivity. }
    destruct D as [->|(ei & -> & P)]; [reflexivity|]. apply prefix_iff in P as [z ->].
    replace (skipn (length (pem_body raw) + length pem_end) (pem_body raw ++ pem_end ++ z)) with z.
    2: { rewrite app_assoc, skipn_app, skipn_all2 by (rewrite app_length; lia). rewrite app_length, Nat.sub_diag. reflexivity. }
    replace (length z <? length t + length dashes) with true; [reflexivity|]. symmetry. apply Nat.ltb_lt. change (pem_end ++ head_line t = (pem_end ++ z) ++ w) in E. rewrite <- app_assoc in E.
    apply app_inv_head in E. unfold head_line in E. apply (f_equal (@length byte)) in E. rewrite !app_length in E. destruct w; [contradiction|]. cbn [length] in E. lia.
Qed.
Lemma begin_nonl : ~ In newline_b pem_begin. Proof. cbn. intuition discriminate. Qed.
Lemma decode_short j t raw b w : lead j -> good_type t -> j ++ open_block t raw = b ++ w -> w <> [] -> pem_decode b = (None, b).
Proof.
  intros L G E W. symmetry in E. apply prefix_split in E as [(v & E & _)|(q & Nq & -> & E)].
  { apply decode_nodash. eapply notin_prefix; [exact E|apply L]. }
  unfold open_block in E. symmetry in E. apply prefix_split in E as [(v & E & Ew)|(q1 & N1 & -> & E)].
  - destruct (list_eq_dec Byte.byte_eq_dec v []) as [->|Nv].
    + rewrite app_nil_r in E. subst q. cbn [app] in Ew. destruct (attempt_short t raw [] w G (eq_sym Ew) W) as [A|(r & A & F)].
      all: unfold pem_decode; cbn [decode_loop]; rewrite <- (app_nil_r pem_begin), start_found by exact L; rewrite A.
      { reflexivity. }
      { destruct (length (j ++ pem_begin ++ [])); [reflexivity|]. cbn [decode_loop]. rewrite F. reflexivity. }
    + unfold pem_decode. cbn [decode_loop]. rewrite start_none; [reflexivity|exact L| |eapply notin_prefix; [exact E|apply begin_nonl]].
      apply not_true_is_false. intros P. apply prefix_iff in P as [z ->]. apply (f_equal (@length byte)) in E. rewrite !app_length in E. destruct v; [contradiction|]. cbn in E. lia.
  - destruct (attempt_short t raw q1 w G E W) as [A|(r & A & F)]; unfold pem_decode; cbn [decode_loop]; rewrite start_found by exact L; rewrite A.
    { reflexivity. }
    { destruct (length (j ++ pem_begin ++ q1)) as [|n]; [reflexivity|]. cbn [decode_loop]. rewrite F. reflexivity. }
Qed.
