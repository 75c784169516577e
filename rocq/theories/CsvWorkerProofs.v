(** Proofs about the workers that turn CSV rows into certificates for the database. *)
From Verif Require Import Base BaseLemmas UtilModel BatchModel BatchProofs CsvModel CsvProofs.

Lemma app_inj_length {A} (a a' b b' : list A) : a ++ b = a' ++ b' -> length a = length a' -> a = a' /\ b = b'.
Proof.
  revert a'. induction a as [|x a IH]; intros [|y a'] E Hl; try discriminate Hl; [auto|]. injection E as -> E. injection Hl as Hl. destruct (IH a' E Hl) as [-> ->]. auto.
Qed.
(** ** The fields of a row *)
Lemma split_loop_ok f : forall l P cur parts, f = P ++ cur ++ l ->
  split_loop f l (length P + length cur) (length P) parts = parts ++ match split_on semicolon l with x :: r => (cur ++ x) :: r | [] => [] end.
Proof.
  induction l as [|x l IH]; intros P cur parts Hf; cbn [split_loop split_on].
  - rewrite app_nil_r. f_equal. f_equal. rewrite Hf. apply slice_mid.
  - destruct (Byte.eqb x semicolon) eqn:E.
    + specialize (IH (P ++ cur ++ [x]) [] (parts ++ [slice_of f (length P) (length P + length cur)])). rewrite !app_length in IH. cbn [length] in IH.
      replace (length P + (length cur + 1) + 0) with (S (length P + length cur)) in IH by lia. replace (length P + (length cur + 1)) with (S (length P + length cur)) in IH by lia.
      rewrite IH by (rewrite Hf, <- !app_assoc; reflexivity). rewrite <- app_assoc, app_nil_r. cbn [app]. f_equal. f_equal; [rewrite Hf; apply slice_mid|].
      pose proof (split_ne semicolon l). destruct (split_on semicolon l); [congruence | reflexivity].
    + specialize (IH P (cur ++ [x]) parts). rewrite app_length in IH. cbn [length] in IH. replace (length P + (length cur + 1)) with (S (length P + length cur)) in IH by lia.
      rewrite IH by (rewrite Hf, <- !app_assoc; reflexivity). pose proof (split_ne semicolon l). destruct (split_on semicolon l) as [|y r]; [congruence|].
      rewrite <- app_assoc. reflexivity.
Qed.
Lemma split_semicolon_ok f : split_semicolon f = split_on semicolon f.
Proof.
  unfold split_semicolon. pose proof (split_loop_ok f f [] [] [] eq_refl) as E. cbn [length Nat.add app] in E. rewrite E. clear E. pose proof (split_ne semicolon f). destruct (split_on semicolon f); [congruence | reflexivity].
Qed.

(** The value of a string of digits. *)
Definition decimal (l : bytes) : Z := fold_left (fun v x => v * 10 + (Z.of_N (Byte.to_N x) - 48))%Z l 0%Z.
Lemma digits_value_ok l : forall v, forallb is_digit l = true -> digits_value l v = Some (fold_left (fun v x => v * 10 + (Z.of_N (Byte.to_N x) - 48))%Z l v).
Proof.
  induction l as [|x l IH]; intros v Hd; [reflexivity|]. cbn [forallb] in Hd. apply andb_true_iff in Hd as [H1 H2]. cbn [digits_value fold_left]. rewrite H1. apply IH. exact H2.
Qed.
Lemma decimal_pos l : forallb is_digit l = true -> forall v, (0 <= v)%Z -> (0 <= fold_left (fun v x => v * 10 + (Z.of_N (Byte.to_N x) - 48))%Z l v)%Z.
Proof.
  induction l as [|x l IH]; intros Hd v Hv; [exact Hv|]. cbn [forallb] in Hd. apply andb_true_iff in Hd as [H1 H2]. cbn [fold_left]. apply IH; [exact H2|].
  unfold is_digit in H1. apply andb_true_iff in H1 as [H1 _]. apply N.leb_le in H1. lia.
Qed.
Lemma digit_sign x : is_digit x = true -> Byte.eqb x x2b = false /\ Byte.eqb x x2d = false.
Proof. destruct x; cbn; intros H; try discriminate H; split; reflexivity. Qed.
Lemma expiration_value f : looks_like_expiration f = true ->
  exists p q, f = p ++ full_stop :: q /\ p <> [] /\ forallb is_digit p = true /\ get_expiration f = if (decimal p <? 2 ^ 63)%Z then Some (decimal p) else None.
Proof.
  unfold looks_like_expiration, get_expiration. destruct (length f <? 3); [discriminate|]. destruct (cut full_stop f) as [[p q]|] eqn:C; [|discriminate]. intros H.
  apply andb_true_iff in H as [H _]. apply andb_true_iff in H as [H H1]. apply andb_true_iff in H as [Hp Hq]. apply cut_some in C as [C _]. exists p, q.
  split; [exact C|]. split; [intros ->; discriminate Hp|]. split; [exact H1|]. apply negb_true_iff in Hp, Hq. rewrite Hp, Hq. cbn [orb].
  destruct p as [|x p]; [discriminate Hp|]. unfold parse_int. pose proof H1 as H2. cbn [forallb] in H2. apply andb_true_iff in H2 as [H2 _]. destruct (digit_sign x H2) as [-> ->].
  rewrite digits_value_ok by exact H1. fold (decimal (x :: p)). pose proof (decimal_pos (x :: p) H1 0%Z ltac:(lia)) as Hpos. fold (decimal (x :: p)) in Hpos.
  replace (- 2 ^ 63 <=? decimal (x :: p))%Z with true by (symmetry; apply Z.leb_le; lia). reflexivity.
Qed.

Section Worker.
  Variable H : bytes -> bytes.
  Variable b64 : bytes -> option bytes.
  Variable x509 : bytes -> option cert.
  Variable not_after : cert -> Z.
  Variable now : Z.
  Variable size : nat.
  Notation worker := (worker H b64 x509 not_after now size).
  Notation to_chain := (to_chain H b64 x509 not_after now size).
  Notation chain_loop := (chain_loop H b64 x509 size).

  (** ** The meaning of a row, independent of the code *)
  (** The decoded chain of a row. *)
  Definition chain_raws (p : parsed) (rs : list bytes) : Prop := Forall2 (fun s r => b64 s = Some r) (split_on semicolon (p_chain p)) rs.
  (** A row to be ingested: neither its last column nor its certificate is in the past. *)
  Definition live (p : parsed) (r : bytes) (c : cert) : Prop :=
    b64 (p_cert p) = Some r /\ x509 r = Some c /\ (now <= not_after c)%Z /\ exists n, get_expiration (p_exp p) = Some n /\ (now <= n * 1000000000)%Z.
  Definition parent_id (t : list bytes) : option bytes := match t with [] => None | r :: _ => Some (H r) end.
  Definition has_parents (out : list out_row) (rs : list bytes) : Prop :=
    forall a r t, rs = a ++ r :: t -> exists c, x509 r = Some c /\ In (c, H r, parent_id t, None) out.
  Definition has_leaf (out : list out_row) (r : bytes) (c : cert) (rs : list bytes) : Prop := In (c, H r, parent_id rs, Some (cert_names c)) out.
  (** A certificate is always followed by the same certificates. *)
  Definition same_tail (rs rs' : list bytes) : Prop := forall r a t a' t', rs = a ++ r :: t -> rs' = a' ++ r :: t' -> t = t'.

  (** ** The loop over a chain *)
  Lemma chain_loop_ok parts : forall cache acc ch cache', chain_loop parts cache acc = (Ok ch, cache') ->
    exists rs ch', Forall2 (fun s r => b64 s = Some r) parts rs /\ ch = acc ++ ch' /\ map snd ch' = map H rs /\
      (forall id, In id cache' -> In id cache \/ In id (map H rs)) /\
      (forall a c id t ra, ch' = a ++ (c, id) :: t -> length ra = length a -> (exists rt, rs = ra ++ rt) ->
         match c with Some c => exists r, nth_error rs (length a) = Some r /\ x509 r = Some c | None => In id cache \/ In id (map H ra) end).
  Proof.
    induction parts as [|s parts IH]; intros cache acc ch cache' E; cbn [CsvModel.chain_loop] in E.
    - injection E as <- <-. exists [], []. split; [constructor|]. split; [rewrite app_nil_r; reflexivity|]. split; [reflexivity|]. split; [auto|].
      intros a c id t ra X. destruct a; discriminate X.
    - destruct (b64 s) as [r|] eqn:B; [|discriminate E]. cbv zeta in E. destruct (lru_contains cache (H r)) eqn:L.
      + destruct (IH _ _ _ _ E) as (rs & ch' & H1 & -> & H2 & H3 & H4). exists (r :: rs), ((None, H r) :: ch'). rewrite <- app_assoc.
        split; [constructor; assumption|]. split; [reflexivity|]. split; [cbn; f_equal; exact H2|]. split; [intros id Hid; destruct (H3 id Hid); cbn; auto|].
        intros a c id t ra X Hl (rt & Hr). destruct a as [|y a]; cbn [app] in X; injection X as X1 X2.
        * intros. subst c id. left. apply lru_contains_iff. exact L.
        * intros. destruct ra as [|z ra]; [discriminate Hl|]. cbn [app] in Hr. injection Hr as <- Hr. cbn [length] in Hl. injection Hl as Hl.
          specialize (H4 a c id t ra X2 Hl (ex_intro _ rt Hr)). destruct c; [exact H4|]. destruct H4; cbn; auto.
      + destruct (x509 r) as [c0|] eqn:X0; [|discriminate E]. destruct (IH _ _ _ _ E) as (rs & ch' & H1 & -> & H2 & H3 & H4). exists (r :: rs), ((Some c0, H r) :: ch'). rewrite <- app_assoc.
        assert (Hadd : forall id, In id (lru_add size cache (H r)) -> In id cache \/ id = H r) by (intros id Hid; apply lru_add_in in Hid; tauto).
        split; [constructor; assumption|]. split; [reflexivity|]. split; [cbn; f_equal; exact H2|].
        split; [intros id Hid; destruct (H3 id Hid) as [Y|Y]; [destruct (Hadd id Y) as [Z| ->]; cbn; auto | cbn; auto]|].
        intros a c id t ra X Hl (rt & Hr). destruct a as [|y a]; cbn [app] in X; injection X as X1 X2.
        * intros. subst c id. exists r. split; [reflexivity | exact X0].
        * intros. destruct ra as [|z ra]; [discriminate Hl|]. cbn [app] in Hr. injection Hr as <- Hr. cbn [length] in Hl. injection Hl as Hl.
          specialize (H4 a c id t ra X2 Hl (ex_intro _ rt Hr)). destruct c; [exact H4|]. destruct H4 as [Y|Y]; [destruct (Hadd _ Y) as [Z| ->]; cbn; auto | cbn; auto].
  Qed.

  (** What is sent for a chain whose first absent certificate has position [k]. *)
  Lemma unfold_parents_ok ch : forall rs, map snd ch = map H rs ->
    (forall a c id t, ch = a ++ (Some c, id) :: t -> exists r, nth_error rs (length a) = Some r /\ x509 r = Some c) ->
    exists k, k <= length rs /\
      (forall a r t, rs = a ++ r :: t -> length a < k -> exists c, x509 r = Some c /\ In (c, H r, parent_id t, None) (unfold_parents ch)) /\
      (k < length rs -> exists a id t, ch = a ++ (None, id) :: t /\ length a = k) .
  Proof.
    induction ch as [|[[c|] id] ch IH]; intros rs Hm Hs.
    - destruct rs; [|discriminate Hm]. exists 0. split; [lia|]. split; [intros; lia | cbn; lia].
    - destruct rs as [|r rs]; [discriminate Hm|]. cbn [map snd] in Hm. injection Hm as Hid Hm. subst id.
      destruct (IH rs Hm) as (k & Hk & H1 & H2).
      { intros a c' id t X. exact (Hs ((Some c, H r) :: a) c' id t (f_equal (cons _) X)). }
      exists (S k). split; [cbn; lia|]. split.
      + intros a r' t X Hl. destruct a as [|y a]; cbn [app] in X; injection X as X1 X2.
        * subst r' t. destruct (Hs [] c (H r) ch eq_refl) as (r' & N & X). cbn in N. injection N as <-. exists c. split; [exact X|]. cbn [unfold_parents]. left.
          destruct ch as [|[o pid] ch], rs as [|r' rs]; try discriminate Hm; [reflexivity|]. cbn in Hm. injection Hm as -> _. reflexivity.
        * cbn [length] in Hl. destruct (H1 a r' t X2 ltac:(lia)) as (c' & X & Y). exists c'. split; [exact X|]. right. exact Y.
      + cbn [length]. intros Hl. destruct (H2 ltac:(lia)) as (a & id & t & -> & <-). exists ((Some c, H r) :: a), id, t. split; reflexivity.
    - exists 0. split; [lia|]. split; [intros; lia|]. intros _. exists [], id, ch. split; reflexivity.
  Qed.

  (** ** Nothing else is sent *)
  Lemma unfold_parents_in ch c id par nm : In (c, id, par, nm) (unfold_parents ch) ->
    exists a t, ch = a ++ (Some c, id) :: t /\ par = (match t with [] => None | (_, pid) :: _ => Some pid end) /\ nm = None.
  Proof.
    induction ch as [|[[c'|] id'] ch IH]; cbn [unfold_parents]; [intros []| |intros []]. intros [X|X].
    - injection X as <- <- <- <-. exists [], ch. auto.
    - destruct (IH X) as (a & t & -> & Y). exists ((Some c', id') :: a), t. split; [reflexivity | exact Y].
  Qed.
  Definition comes_from (p : parsed) (row : out_row) : Prop :=
    exists r c rs, live p r c /\ chain_raws p rs /\
      (row = (c, H r, parent_id rs, Some (cert_names c)) \/
       exists a r' c' t, rs = a ++ r' :: t /\ x509 r' = Some c' /\ row = (c', H r', parent_id t, None)).
  Lemma parent_of (t : list (option cert * bytes)) rt : map snd t = map H rt -> parent_id rt = match t with [] => None | (_, pid) :: _ => Some pid end.
  Proof. destruct t as [|[o pid] t], rt as [|r rt]; cbn; intros E; try discriminate E; [reflexivity|]. injection E as -> _. reflexivity. Qed.
  Lemma to_chain_live p cache c id ch cache' : to_chain p cache = (Ok (Some (c, id, ch)), cache') ->
    exists r, live p r c /\ id = H r /\ chain_loop (split_semicolon (p_chain p)) cache [] = (Ok ch, cache').
  Proof.
    unfold CsvModel.to_chain. destruct (get_expiration (p_exp p)) as [n|] eqn:E; [|discriminate]. destruct (Z.ltb_spec (n * 1000000000) now) as [Hn|Hn]; [discriminate|].
    destruct (b64 (p_cert p)) as [r|] eqn:B; [|discriminate]. cbv zeta. destruct (lru_contains cache (H r)); [discriminate|].
    destruct (x509 r) as [c'|] eqn:X; [|discriminate]. destruct (Z.ltb_spec (not_after c') now) as [Hc|Hc]; [discriminate|].
    destruct (chain_loop (split_semicolon (p_chain p)) cache []) as [[ch'| |] cache1] eqn:CL; try discriminate. intros Y. injection Y as <- <- <- <-.
    exists r. split; [repeat split; auto; exists n; auto | auto].
  Qed.
  Lemma worker_from rows : forall cache row, In row (fst (worker rows cache)) -> exists p, In p rows /\ comes_from p row.
  Proof.
    induction rows as [|p rows IH]; intros cache row Hin; cbn [CsvModel.worker] in Hin; [destruct Hin|].
    destruct (to_chain p cache) as [[[[[c id] ch]|]| |] cache1] eqn:T; try (destruct Hin; fail).
    - destruct (unfold_cert c id ch) as [o| |] eqn:U; try (destruct Hin; fail). destruct (worker rows cache1) as [outs ok] eqn:W. cbn [fst] in Hin.
      apply in_app_or in Hin as [Hin|Hin]; [|destruct (IH cache1 row ltac:(rewrite W; exact Hin)) as (q & Q1 & Q2); exists q; split; [right; exact Q1 | exact Q2]].
      exists p. split; [left; reflexivity|]. destruct (to_chain_live _ _ _ _ _ _ T) as (r & Hl & -> & CL). rewrite split_semicolon_ok in CL.
      destruct (chain_loop_ok _ _ _ _ _ CL) as (rs & ch' & H1 & H2 & H3 & _ & H5). cbn [app] in H2. subst ch'. exists r, c, rs. split; [exact Hl|]. split; [exact H1|].
      unfold unfold_cert in U. destruct ch as [|[o1 pid] ch]; [discriminate U|]. assert (Ho : o = (c, H r, Some pid, Some (cert_names c)) :: unfold_parents ((o1, pid) :: ch)) by congruence. rewrite Ho in Hin. clear U Ho. destruct Hin as [<-|Hin].
      + left. rewrite (parent_of _ _ H3). reflexivity.
      + right. destruct row as [[[c' id'] par] nm]. destruct (unfold_parents_in _ _ _ _ _ Hin) as (a & t & E & -> & ->).
        assert (Hlen : length ((o1, pid) :: ch) = length rs) by (rewrite <- (map_length snd), H3, map_length; reflexivity).
        assert (Hla : length (firstn (length a) rs) = length a) by (rewrite firstn_length; rewrite E, app_length in Hlen; lia).
        destruct (H5 a (Some c') id' t (firstn (length a) rs) E Hla (ex_intro _ _ (eq_sym (firstn_skipn (length a) rs)))) as (r' & N & X).
        apply nth_error_split in N as (ra & rt & Er & Hra). exists ra, r', c', rt. split; [exact Er|]. split; [exact X|].
        rewrite E, Er, !map_app in H3. cbn [map] in H3. apply app_inj_length in H3 as [_ H3]; [|rewrite !map_length; congruence]. cbn [snd] in H3. injection H3 as -> H3.
        rewrite (parent_of _ _ H3). reflexivity.
    - destruct (IH cache1 row Hin) as (q & Q1 & Q2). exists q. split; [right; exact Q1 | exact Q2].
  Qed.

  (** ** The invariant: whatever is in the cache was sent, with everything above it. *)
  Variable rows0 : list parsed.
  (** The chains of the rows that are to be ingested. *)
  Definition chain_in (rs : list bytes) : Prop := exists p r c, In p rows0 /\ live p r c /\ chain_raws p rs.
  Definition leaf_in (r : bytes) : Prop := exists p c, In p rows0 /\ live p r c.
  Hypothesis Hinj : forall r r', (leaf_in r \/ exists rs, chain_in rs /\ In r rs) -> (exists rs, chain_in rs /\ In r' rs) -> H r = H r' -> r = r'.
  Hypothesis Htail : forall rs rs', chain_in rs -> chain_in rs' -> same_tail rs rs'.
  Hypothesis Hleaf : forall r rs, leaf_in r -> chain_in rs -> ~ In r rs.

  Definition sent (out : list out_row) (cache : list bytes) : Prop :=
    forall id, In id cache -> exists rs a r t, chain_in rs /\ rs = a ++ r :: t /\ id = H r /\ has_parents out (r :: t).
  Lemma has_parents_mono out out' rs : (forall x, In x out -> In x out') -> has_parents out rs -> has_parents out' rs.
  Proof. intros Hi Hp a r t E. destruct (Hp a r t E) as (c & X & Y). exists c. auto. Qed.
  Lemma has_parents_suffix out a rs : has_parents out (a ++ rs) -> has_parents out rs.
  Proof. intros Hp b r t ->. apply (Hp (a ++ b)). rewrite app_assoc. reflexivity. Qed.

  Lemma chain_sent out cache p ch cache' :
    chain_loop (split_semicolon (p_chain p)) cache [] = (Ok ch, cache') -> sent out cache ->
    exists rs, chain_raws p rs /\ map snd ch = map H rs /\
      (chain_in rs -> has_parents (unfold_parents ch ++ out) rs /\ sent (unfold_parents ch ++ out) cache').
  Proof.
    intros E Hinv. rewrite split_semicolon_ok in E. destruct (chain_loop_ok _ _ _ _ _ E) as (rs & ch' & H1 & H2 & H3 & H4 & H5). cbn [app] in H2. subst ch'.
    exists rs. split; [exact H1|]. split; [exact H3|]. intros Hch.
    assert (Hlen : length ch = length rs) by (rewrite <- (map_length snd), H3, map_length; reflexivity).
    assert (Hsplit : forall (a : list (option cert * bytes)) x t, ch = a ++ x :: t -> exists ra rt, rs = ra ++ rt /\ length ra = length a).
    { intros a x t Ea. exists (firstn (length a) rs), (skipn (length a) rs). split; [symmetry; apply firstn_skipn|]. rewrite firstn_length. rewrite Ea, app_length in Hlen. lia. }
    destruct (unfold_parents_ok ch rs H3) as (k & Hk & P1 & P2).
    { intros a c id t X. destruct (Hsplit a _ t X) as (ra & rt & Hr & Hl). exact (H5 a (Some c) id t ra X Hl (ex_intro _ rt Hr)). }
    assert (Hall : has_parents (unfold_parents ch ++ out) rs).
    { destruct (Nat.lt_ge_cases k (length rs)) as [Hlt|Hge].
      - destruct (P2 Hlt) as (a & id & t & X & <-). destruct (Hsplit a _ t X) as (ra & rt & Hr & Hl). pose proof (H5 a None id t ra X Hl (ex_intro _ rt Hr)) as Hin. cbv beta iota in Hin.
        destruct rt as [|r rt]; [rewrite app_nil_r in Hr; subst; lia|].
        assert (Hid : id = H r).
        { rewrite X, Hr in H3. rewrite !map_app in H3. apply (f_equal (fun l => nth_error l (length a))) in H3. rewrite !nth_error_app2 in H3 by (rewrite map_length; lia).
          rewrite !map_length, Hl, Nat.sub_diag in H3. cbn in H3. injection H3 as H3. exact H3. }
        destruct Hin as [Hin|Hin].
        + (* it was in the cache before *)
          destruct (Hinv id Hin) as (rs' & a' & r' & t' & I1 & I2 & I3 & I4).
          assert (r' = r).
          { apply Hinj; [right; exists rs'; split; [exact I1 | rewrite I2; apply in_elt] | exists rs; split; [exact Hch | rewrite Hr; apply in_elt] | congruence]. }
          subst r'. assert (rt = t') by (apply (Htail rs rs' Hch I1 r ra rt a' t' Hr I2)). subst t'.
          intros b y u Y. destruct (Nat.lt_ge_cases (length b) (length a)) as [Hb|Hb].
          * destruct (P1 b y u Y Hb) as (c & Z1 & Z2). exists c. split; [exact Z1 | apply in_or_app; left; exact Z2].
          * assert (Y' : skipn (length ra) rs = skipn (length ra) b ++ y :: u).
            { rewrite Y, skipn_app. replace (length ra - length b) with 0 by lia. reflexivity. }
            rewrite Hr in Y' at 1. rewrite skipn_app, skipn_all, Nat.sub_diag in Y'. cbn [app skipn] in Y'.
            destruct (I4 _ _ _ Y') as (c & Z1 & Z2). exists c. split; [exact Z1 | apply in_or_app; right; exact Z2].
        + (* it occurs earlier in the same chain: impossible *)
          exfalso. apply in_map_iff in Hin as (r' & E1 & E2).
          assert (r' = r) by (apply Hinj; [right; exists rs; split; [exact Hch | rewrite Hr; apply in_or_app; left; exact E2] | exists rs; split; [exact Hch | rewrite Hr; apply in_elt] | congruence]).
          subst r'. apply in_split in E2 as (u & v & ->). rewrite <- app_assoc in Hr. cbn [app] in Hr.
          pose proof (Htail rs rs Hch Hch r u (v ++ r :: rt) (u ++ r :: v) rt Hr) as T. rewrite <- app_assoc in T. specialize (T Hr).
          apply (f_equal (@length bytes)) in T. rewrite app_length in T. cbn in T. lia.
      - intros b y u Y. assert (Hb : length b < k) by (rewrite Y, app_length in Hge; cbn in Hge; lia). destruct (P1 b y u Y Hb) as (c & Z1 & Z2). exists c. split; [exact Z1 | apply in_or_app; left; exact Z2]. }
    split; [exact Hall|]. intros id Hid. destruct (H4 id Hid) as [Y|Y].
    - destruct (Hinv id Y) as (rs' & a & r & t & I1 & I2 & I3 & I4). exists rs', a, r, t. split; [exact I1|]. split; [exact I2|]. split; [exact I3|].
      apply (has_parents_mono out); [|exact I4]. intros x Hx. apply in_or_app. right. exact Hx.
    - apply in_map_iff in Y as (r & <- & Y). apply in_split in Y as (a & t & ->). exists (a ++ r :: t), a, r, t. split; [exact Hch|]. split; [reflexivity|]. split; [reflexivity|].
      exact (has_parents_suffix _ a _ Hall).
  Qed.

  (** ** All rows *)
  Lemma live_fun p r c r' c' : live p r c -> live p r' c' -> r = r' /\ c = c'.
  Proof. intros (A & B & _) (A' & B' & _). rewrite A in A'. injection A' as <-. rewrite B in B'. injection B' as <-. auto. Qed.

  (** A row is skipped, with its certificate in the cache or in the past, or its chain is sent. *)
  Lemma to_chain_ok p cache x cache' : to_chain p cache = (Ok x, cache') ->
    (x = None /\ cache' = cache /\ forall r c, live p r c -> In (H r) cache) \/
    exists r c ch, live p r c /\ chain_loop (split_semicolon (p_chain p)) cache [] = (Ok ch, cache') /\ x = Some (c, H r, ch).
  Proof.
    unfold CsvModel.to_chain. destruct (get_expiration (p_exp p)) as [n|] eqn:E; [|discriminate].
    destruct (Z.ltb_spec (n * 1000000000) now) as [Hn|Hn].
    { intros X. injection X as <- <-. left. split; [reflexivity|]. split; [reflexivity|]. intros r c (_ & _ & _ & m & Y & Z). exfalso. assert (m = n) by congruence. subst m. lia. }
    destruct (b64 (p_cert p)) as [r|] eqn:B; [|discriminate]. cbv zeta. destruct (lru_contains cache (H r)) eqn:L.
    { intros X. injection X as <- <-. left. split; [reflexivity|]. split; [reflexivity|]. intros r' c (Y & _). assert (r' = r) by congruence. subst r'. apply lru_contains_iff. exact L. }
    destruct (x509 r) as [c|] eqn:X; [|discriminate]. destruct (Z.ltb_spec (not_after c) now) as [Hc|Hc].
    { intros Y. injection Y as <- <-. left. split; [reflexivity|]. split; [reflexivity|]. intros r' c' (Y1 & Y2 & Y3 & _). exfalso. assert (r' = r) by congruence. subst r'. assert (c' = c) by congruence. subst c'. lia. }
    destruct (chain_loop (split_semicolon (p_chain p)) cache []) as [[ch| |] cache1] eqn:CL; try discriminate. intros Y. injection Y as <- <-.
    right. exists r, c, ch. split; [repeat split; auto; exists n; auto | auto].
  Qed.

  Lemma worker_ok rows : forall cache before out, incl rows rows0 -> worker rows cache = (out, true) -> sent before cache ->
    forall p r c, In p rows -> live p r c -> exists rs, chain_raws p rs /\ has_leaf out r c rs /\ has_parents (out ++ before) rs.
  Proof.
    induction rows as [|p rows IH]; intros cache before out Hi E Hinv p0 r0 c0 Hin Hlive; [destruct Hin|]. cbn [CsvModel.worker] in E.
    apply incl_cons_inv in Hi as [Hp Hi]. destruct (to_chain p cache) as [[x| |] cache1] eqn:T; try discriminate E.
    destruct (to_chain_ok _ _ _ _ T) as [(-> & -> & T1)|(r & c & ch & Hl & CL & ->)].
    - destruct Hin as [<-|Hin]; [|exact (IH cache before out Hi E Hinv p0 r0 c0 Hin Hlive)].
      exfalso. destruct (Hinv _ (T1 _ _ Hlive)) as (rs & a & r' & t & I1 & I2 & I3 & _).
      assert (Hlf : leaf_in r0) by (exists p, c0; auto).
      assert (r0 = r') by (apply Hinj; [left; exact Hlf | exists rs; split; [exact I1 | rewrite I2; apply in_elt] | exact I3]). subst r'.
      apply (Hleaf r0 rs Hlf I1). rewrite I2. apply in_elt.
    - destruct (unfold_cert c (H r) ch) as [o| |] eqn:U; try discriminate E. destruct (worker rows cache1) as [outs ok] eqn:W. injection E as <- ->.
      destruct (chain_sent before cache p ch cache1 CL Hinv) as (rs & Hr & C2 & C3). destruct C3 as [C3 C4]; [exists p, r, c; auto|].
      unfold unfold_cert in U. destruct ch as [|[o1 pid] ch]; [discriminate U|]. injection U as <-.
      assert (Hpid : parent_id rs = Some pid) by (destruct rs as [|r1 rs]; [discriminate C2|]; cbn in C2 |- *; injection C2 as -> _; reflexivity).
      set (ps := unfold_parents ((o1, pid) :: ch)) in *.
      destruct Hin as [<-|Hin].
      + destruct (live_fun _ _ _ _ _ Hl Hlive) as [<- <-]. exists rs. split; [exact Hr|]. split; [unfold has_leaf; rewrite Hpid; left; reflexivity|].
        apply (has_parents_mono (ps ++ before)); [|exact C3]. intros y Hy. apply in_app_or in Hy as [Hy|Hy]; apply in_or_app; [left; cbn [app]; right; apply in_or_app; left; exact Hy | right; exact Hy].
      + destruct (IH cache1 (ps ++ before) outs Hi W C4 p0 r0 c0 Hin Hlive) as (rs0 & R1 & R2 & R3).
        exists rs0. split; [exact R1|]. split; [unfold has_leaf in *; cbn [app]; right; apply in_or_app; right; exact R2|].
        apply (has_parents_mono (outs ++ ps ++ before)); [|exact R3].
        intros y Hy. apply in_app_or in Hy as [Hy|Hy]; [apply in_or_app; left; right; apply in_or_app; right; exact Hy|]. apply in_app_or in Hy as [Hy|Hy]; apply in_or_app; [left; right; apply in_or_app; left; exact Hy | right; exact Hy].
  Qed.

  (** Several workers, each with its own cache, and the rows handed out to them in any way. *)
  Lemma workers_ok parts : (forall p, In p rows0 -> exists part, In part parts /\ In p part) -> (forall part, In part parts -> incl part rows0) ->
    (forall part, In part parts -> snd (worker part []) = true) ->
    forall p r c, In p rows0 -> live p r c -> exists rs, chain_raws p rs /\ has_leaf (flat_map (fun part => fst (worker part [])) parts) r c rs /\
      has_parents (flat_map (fun part => fst (worker part [])) parts) rs.
  Proof.
    intros Hc Hi Hok p r c Hp Hl. destruct (Hc p Hp) as (part & P1 & P2). specialize (Hok part P1). destruct (worker part []) as [out ok] eqn:W. cbn in Hok. subst ok.
    destruct (worker_ok part [] [] out (Hi part P1) W ltac:(intros id []) p r c P2 Hl) as (rs & R1 & R2 & R3). rewrite app_nil_r in R3. exists rs. split; [exact R1|].
    assert (Hsub : forall x, In x out -> In x (flat_map (fun part => fst (worker part [])) parts)) by (intros x Hx; apply in_flat_map; exists part; split; [exact P1 | rewrite W; exact Hx]).
    split; [apply Hsub; exact R2 | exact (has_parents_mono _ _ _ Hsub R3)].
  Qed.
End Worker.
