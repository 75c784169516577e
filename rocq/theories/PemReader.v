(** CertReader over texts made of blocks and other lines, whatever the pieces in which they arrive. *)
From Coq Require Import Strings.String.
From Verif Require Import Base BaseLemmas UtilModel DbModel LoadModel LoadProofs PemModel PemProofs.
Local Open Scope list_scope.

(** Texts: blocks as pem.Encode writes them, and lines without dashes around them *)
Inductive item := Lines (j : bytes) | Block (type raw : bytes).
Definition item_text (i : item) : bytes := match i with Lines j => j | Block t raw => pem_encode t raw end.
Definition good_item (i : item) : Prop := match i with Lines j => lead j | Block t _ => good_type t end.
Definition text_of (l : list item) : bytes := concat (map item_text l).
(** The contents of the certificate blocks *)
Fixpoint cert_raws (l : list item) : list bytes :=
  match l with
  | [] => []
  | Block t raw :: l' => if beqb t cert_type then raw :: cert_raws l' else cert_raws l'
  | Lines _ :: l' => cert_raws l'
  end.

Lemma lead_app a b : lead a -> lead b -> lead (a ++ b).
Proof.
  intros [N1 S1] [N2 S2]. split; [intros X; apply in_app_or in X; tauto|]. destruct S2 as [->|[b' ->]]; [rewrite app_nil_r; exact S1|].
  right. exists (a ++ b'). now rewrite app_assoc.
Qed.
Lemma lead_nl : lead [newline_b].
Proof. split; [cbn; intuition discriminate|]. right. exists []. reflexivity. Qed.
Lemma lead_nil : lead [].
Proof. split; [intros []|left; reflexivity]. Qed.
Lemma items_cases l : Forall good_item l ->
  lead (text_of l) /\ cert_raws l = [] \/
  exists j t raw l', text_of l = j ++ open_block t raw ++ newline_b :: text_of l' /\ lead j /\ good_type t /\ Forall good_item l' /\
    cert_raws l = if beqb t cert_type then raw :: cert_raws l' else cert_raws l'.
Proof.
  induction 1 as [|i l Hi Hl IH]; [left; split; [apply lead_nil|reflexivity]|]. destruct i as [j|t raw].
  - destruct IH as [[L R]|(j' & t & raw & l' & E & L & G & F & R)].
    + left. split; [apply lead_app; assumption|exact R].
    + right. exists (j ++ j'), t, raw, l'. split; [|split; [apply lead_app; assumption|auto]].
      change (text_of (Lines j :: l)) with (j ++ text_of l). rewrite E, <- app_assoc. reflexivity.
  - right. exists [], t, raw, l. split; [|split; [apply lead_nil|auto]].
    change (text_of (Block t raw :: l)) with (pem_encode t raw ++ text_of l). rewrite encode_open, <- app_assoc. reflexivity.
Qed.

Section Reader.
  Variable cert : Type.
  Variable parse_tbs parse_cert : bytes -> option cert.
  Notation parse := (parse cert parse_tbs parse_cert).
  Notation take_blocks := (take_blocks cert parse_tbs parse_cert).
  Notation read_certs := (read_certs cert parse_tbs parse_cert).
  Notation cert_read := (cert_read cert parse_tbs parse_cert).
  (** All certificates, if all can be parsed *)
  Fixpoint parsed (raws : list bytes) : option (list cert) :=
    match raws with
    | [] => Some []
    | raw :: l => match parse raw, parsed l with Some c, Some cs => Some (c :: cs) | _, _ => None end
    end.
  Lemma parsed_firstn k n raws : k <= n -> parsed (firstn k raws) = None -> parsed (firstn n raws) = None.
  Proof.
    revert n raws. induction k as [|k IH]; intros n raws L E; [discriminate|]. destruct n as [|n]; [lia|]. destruct raws as [|r raws]; [discriminate|].
    cbn [firstn parsed] in *. destruct (parse r); [|reflexivity]. destruct (parsed (firstn k raws)) eqn:F; [discriminate|]. rewrite (IH n raws ltac:(lia) F). reflexivity.
  Qed.
  Lemma parsed_app a b cs : parsed a = Some cs -> parsed (a ++ b) = match parsed b with Some ds => Some (cs ++ ds) | None => None end.
  Proof.
    revert cs. induction a as [|r a IH]; intros cs E; cbn in *; [injection E as <-; destruct (parsed b); reflexivity|].
    destruct (parse r) as [c|]; [|discriminate]. destruct (parsed a) as [ds|]; [|discriminate]. injection E as <-. rewrite (IH ds eq_refl). destruct (parsed b); reflexivity.
  Qed.
  Lemma parsed_length a cs : parsed a = Some cs -> length cs = length a.
  Proof.
    revert cs. induction a as [|r a IH]; intros cs E; cbn in *; [injection E as <-; reflexivity|].
    destruct (parse r) as [c|]; [|discriminate]. destruct (parsed a) as [ds|]; [|discriminate]. injection E as <-. cbn. f_equal. apply IH. reflexivity.
  Qed.

  Definition took (k want : nat) (b p : bytes) (l : list item) (x : option (list cert) * bytes) : Prop :=
    k <= want /\ k <= length (cert_raws l) /\
    match parsed (firstn k (cert_raws l)) with
    | None => exists rest, x = (None, rest)
    | Some cs => exists rest l', x = (Some cs, rest) /\ Forall good_item l' /\ rest ++ p = text_of l' /\ cert_raws l' = skipn k (cert_raws l) /\
        length rest <= length b /\ (p = [] -> k = Nat.min want (length (cert_raws l)))
    end.
  Lemma take_ok : forall fuel want b p l, Forall good_item l -> b ++ p = text_of l -> length b < fuel -> exists k, took k want b p l (take_blocks fuel want b).
  Proof.
    induction fuel as [|f IH]; intros want b p l Hl E Hf; [lia|].
    assert (Zero : forall x, x = (Some [], b) -> (p = [] -> Nat.min want (length (cert_raws l)) = 0) -> exists k, took k want b p l x).
    { intros x Hx Hm. exists 0. split; [lia|]. split; [lia|]. cbn [firstn parsed]. exists b, l. repeat split; auto. intros Hp. symmetry. apply Hm, Hp. }
    destruct want as [|w]; [apply Zero; reflexivity|]. cbn [PemModel.take_blocks].
    destruct (items_cases l Hl) as [[L R]|(j & t & raw & l' & Et & L & G & F & R)].
    { rewrite decode_nodash; [apply Zero; [reflexivity|]; rewrite R; reflexivity|].
      intros X. apply (proj1 L). rewrite <- E. apply in_or_app. auto. }
    rewrite Et, app_assoc in E. assert (Go : forall rest, pem_decode b = (Some (t, raw), rest) -> length rest < length b ->
      forall l2, Forall good_item l2 -> rest ++ p = text_of l2 -> cert_raws l2 = cert_raws l' ->
      exists k, took k (S w) b p l (match pem_decode b with
        | (None, rest) => (Some [], rest)
        | (Some (t, raw), rest) => if beqb t cert_type then match parse raw with None => (None, rest) | Some c => let (r, rest') := take_blocks f w rest in (option_map (cons c) r, rest') end
                                   else take_blocks f (S w) rest end)).
    { intros rest -> Hr l2 G2 E2 R2. destruct (beqb t cert_type) eqn:T.
      - destruct (parse raw) as [c|] eqn:P.
        + destruct (IH w rest p l2 G2 E2 ltac:(lia)) as (k & K1 & K2 & K). rewrite R2 in *. exists (S k). unfold took. rewrite R. cbn [length firstn skipn parsed]. rewrite P.
          split; [lia|]. split; [lia|]. destruct (parsed (firstn k (cert_raws l'))) as [cs|].
          * destruct K as (rest' & l3 & -> & G3 & E3 & R3 & L3 & M). exists rest', l3. cbn [option_map]. repeat split; auto; [lia|]. intros Hp. rewrite (M Hp). reflexivity.
          * destruct K as (rest' & ->). exists rest'. reflexivity.
        + exists 1. unfold took. rewrite R. cbn [length firstn parsed]. rewrite P. split; [lia|]. split; [lia|]. exists rest. reflexivity.
      - destruct (IH (S w) rest p l2 G2 E2 ltac:(lia)) as (k & K1 & K2 & K). rewrite R2 in *. exists k. unfold took. rewrite R. split; [lia|]. split; [lia|].
        destruct (parsed (firstn k (cert_raws l'))) as [cs|]; [|exact K]. destruct K as (rest' & l3 & -> & G3 & E3 & R3 & L3 & M). exists rest', l3.
        repeat split; auto; lia. }
    assert (Len : 0 < length (j ++ open_block t raw)) by (rewrite app_length; unfold open_block; rewrite app_length; cbn; lia).
    apply prefix_split in E as [(v & E & Ep)|(v & Nv & E & Ep)].
    - destruct (list_eq_dec Byte.byte_eq_dec v []) as [->|Nv].
      + rewrite app_nil_r in E. subst b. cbn [app] in Ep. subst p.
        assert (D : pem_decode (j ++ open_block t raw) = (Some (t, raw), [])).
        { rewrite <- (app_nil_r (open_block t raw)). apply decode_full; auto. left. auto. }
        apply (Go [] D ltac:(cbn [length]; lia) (Lines [newline_b] :: l')); [constructor; [apply lead_nl|exact F]|reflexivity|reflexivity].
      + rewrite (decode_short j t raw b v L G E Nv). apply Zero; [reflexivity|]. intros ->. destruct v; [contradiction|discriminate].
    - destruct v as [|c y]; [contradiction|]. cbn [app] in Ep. injection Ep as <- Ep. subst b.
      assert (D : pem_decode ((j ++ open_block t raw) ++ newline_b :: y) = (Some (t, raw), y)).
      { rewrite <- app_assoc. apply decode_full; auto. right. reflexivity. }
      apply (Go y D ltac:(rewrite app_length; cbn [length]; lia) l' F (eq_sym Ep) eq_refl).
  Qed.

  (** The state of a reader over a text *)
  Definition healthy (r : reader) (l : list item) : Prop :=
    Forall good_item l /\ 0 < length (storage r) /\ length (buff r) <= length (storage r) /\ ~ In Broken (answers (src r)) /\
    buff r ++ pending (src r) = text_of l /\ (eof_reached r = true -> pending (src r) = []).
  Definition full (r : reader) : nat := if length (buff r) =? length (storage r) then 1 else 0.
  Definition mu (r : reader) : nat := length (answers (src r)) + 2 * length (pending (src r)) + full r.
  Lemma source_ok cap s : ~ In Broken (answers s) -> exists d e s', source_read cap s = (d, e, s') /\ pending s = d ++ pending s' /\ length d <= cap /\ ~ In Broken (answers s') /\
    e <> Failed /\ (e = Eof -> pending s' = []) /\
    (length (answers s') < length (answers s) \/
     length (answers s') = length (answers s) /\ (d <> [] \/ e = Eof \/ cap = 0)).
  Proof.
    intros N. unfold source_read. destruct (answers s) as [|[n e|] a] eqn:A.
    - eexists _, _, _. split; [reflexivity|]. cbn [pending answers]. rewrite firstn_skipn. split; [reflexivity|]. split; [rewrite firstn_length; lia|]. split; [intros []|].
      split; [destruct (is_nil (pending s)); discriminate|]. destruct (pending s) as [|c q]; cbn [is_nil].
      + split; [now rewrite skipn_nil|]. right. split; [reflexivity|]. right; left; reflexivity.
      + split; [discriminate|]. right. split; [reflexivity|]. destruct cap; [right; right; reflexivity|left; discriminate].
    - eexists _, _, _. split; [reflexivity|]. cbn [pending answers]. rewrite firstn_skipn. split; [reflexivity|]. split; [rewrite firstn_length; lia|].
      split; [intros X; apply N; right; exact X|]. split; [destruct (_ && _); discriminate|]. split.
      + destruct (skipn _ _); [reflexivity|]. cbn. rewrite andb_false_r. discriminate.
      + left. cbn. lia.
    - destruct N. left. reflexivity.
  Qed.
  Definition done (want : nat) (l : list item) (x : option (res (list cert) * reader)) : Prop :=
    match parsed (firstn want (cert_raws l)) with
    | None => exists r', x = Some (Err, r')
    | Some cs => exists r' l', x = Some (Ok cs, r') /\ healthy r' l' /\ cert_raws l' = skipn want (cert_raws l)
    end.
  Lemma firstn_plus {A} a b (l : list A) : firstn (a + b) l = firstn a l ++ firstn b (skipn a l).
  Proof. revert l. induction a as [|a IH]; intros l; [reflexivity|]. destruct l as [|x l]; [now rewrite !firstn_nil|]. cbn. now rewrite IH. Qed.
  Lemma skipn_plus {A} a b (l : list A) : skipn (a + b) l = skipn b (skipn a l).
  Proof. revert l. induction a as [|a IH]; intros l; [reflexivity|]. destruct l as [|x l]; [now rewrite !skipn_nil|]. cbn. apply IH. Qed.
  Lemma read_ok : forall fuel want r l, healthy r l -> mu r < fuel -> done want l (read_certs fuel want r).
  Proof.
    induction fuel as [|f IH]; intros want r l Hh Hf; [lia|]. destruct want as [|w].
    { cbn. exists r, l. auto. }
    destruct Hh as (Hl & Hs & Hb & Ha & Ht & He). set (want := S w). cbn [PemModel.read_certs]. fold want.
    set (n := Nat.min _ _). assert (Hn : n = length (buff r)) by (unfold n; lia). rewrite Hn. rewrite firstn_all. clear n Hn. set (n := length (buff r)).
    set (st := buff r ++ skipn n (storage r)). assert (Hst : length st = length (storage r)) by (unfold st; rewrite app_length, skipn_length; unfold n; lia).
    destruct (source_ok (length st - n) (src r) Ha) as (d & e & s' & Hr & Hp & Hd & Ha' & Hef & Hee & Hm). rewrite Hr.
    assert (Hfn : firstn n st = buff r) by (unfold st, n; rewrite firstn_app, Nat.sub_diag, firstn_all; cbn; now rewrite app_nil_r). rewrite Hfn.
    set (st' := buff r ++ d ++ skipn (n + length d) st).
    assert (Hb' : firstn (n + length d) st' = buff r ++ d).
    { unfold st'. rewrite app_assoc, firstn_app. replace (n + length d) with (length (buff r ++ d)) by (rewrite app_length; reflexivity). rewrite firstn_all, Nat.sub_diag. cbn. now rewrite app_nil_r. }
    rewrite Hb'. assert (Hst' : length st' = length (storage r)).
    { unfold st'. rewrite !app_length, skipn_length. rewrite Hst in *. unfold n in *. lia. }
    assert (Ht' : (buff r ++ d) ++ pending s' = text_of l) by (rewrite <- app_assoc, <- Hp; exact Ht).
    assert (Hlp : length (pending (src r)) = length d + length (pending s')) by (rewrite Hp, app_length; reflexivity).
    assert (Main : forall eof, (eof = true -> pending s' = []) -> (d = [] -> eof = true) -> done want l
      (match take_blocks (S (length (buff r ++ d))) want (buff r ++ d) with
       | (None, rest) => Some (Err, mk_reader s' st' rest eof)
       | (Some cs, rest) => let r' := mk_reader s' st' rest eof in if eof then Some (Ok cs, r') else
           match read_certs f (want - length cs) r' with Some (Ok cs', r'') => Some (Ok (cs ++ cs'), r'') | x => x end end)).
    { intros eof Hpe Hde. destruct (take_ok (S (length (buff r ++ d))) want (buff r ++ d) (pending s') l Hl Ht' ltac:(lia)) as (k & K1 & K2 & K).
      unfold done. destruct (parsed (firstn k (cert_raws l))) as [cs|] eqn:P.
      - destruct K as (rest & l' & -> & G & E & R & Lr & M). cbv zeta. destruct eof.
        + specialize (Hpe eq_refl). specialize (M Hpe). assert (Ek : firstn want (cert_raws l) = firstn k (cert_raws l)).
          { rewrite M. destruct (Nat.le_ge_cases want (length (cert_raws l))); [now rewrite Nat.min_l|]. rewrite Nat.min_r, firstn_all, firstn_all2 by lia. reflexivity. }
          rewrite Ek, P. exists (mk_reader s' st' rest true), l'. split; [reflexivity|]. split.
          * split; [exact G|]. cbn [storage buff src pending eof_reached]. rewrite Hst'. split; [exact Hs|]. split.
            { rewrite app_length in Lr. unfold n in *. lia. } repeat split; auto.
          * rewrite R, M. destruct (Nat.le_ge_cases want (length (cert_raws l))); [now rewrite Nat.min_l|]. rewrite Nat.min_r, skipn_all, skipn_all2 by lia. reflexivity.
        + assert (Hd0 : d <> []) by (intros X; specialize (Hde X); discriminate).
          assert (Hh' : healthy (mk_reader s' st' rest false) l').
          { split; [exact G|]. cbn [storage buff src pending eof_reached]. rewrite Hst'. split; [exact Hs|]. split; [rewrite app_length in Lr; unfold n in *; lia|]. repeat split; auto; discriminate. }
          assert (Hmu : mu (mk_reader s' st' rest false) < f).
          { unfold mu in *. cbn [src]. assert (full (mk_reader s' st' rest false) <= 1) by (unfold full; destruct (_ =? _); lia). destruct d as [|c d]; [contradiction|]. cbn [length] in *. lia. }
          pose proof (IH (want - length cs) _ l' Hh' Hmu) as D. unfold done in D. pose proof (parsed_length _ _ P) as Lc. rewrite firstn_length, Nat.min_l in Lc by lia.
          rewrite Lc in *. rewrite R in D. replace (firstn want (cert_raws l)) with (firstn k (cert_raws l) ++ firstn (want - k) (skipn k (cert_raws l))).
          2: { rewrite <- firstn_plus. f_equal. lia. }
          rewrite (parsed_app _ _ _ P). destruct (parsed (firstn (want - k) (skipn k (cert_raws l)))) as [ds|].
          * destruct D as (r' & l2 & -> & H2 & R2). exists r', l2. split; [reflexivity|]. split; [exact H2|]. rewrite R2, <- skipn_plus. f_equal. lia.
          * destruct D as (r' & ->). exists r'. reflexivity.
      - destruct K as (rest & ->). rewrite (parsed_firstn k want _ K1 P). eexists. reflexivity. }
    destruct e; [| |contradiction].
    - destruct d as [|c d].
      + (* nothing came: a larger storage *)
        rewrite app_nil_r in *. cbn [app] in Hp. apply IH.
        * split; [exact Hl|]. cbn [storage buff src pending eof_reached]. rewrite repeat_length. split; [lia|]. split; [lia|]. repeat split; auto.
          intros X. rewrite <- Hp. apply He, X.
        * unfold mu in *. cbn [src]. unfold full at 1. cbn [buff storage]. rewrite repeat_length.
          replace (length (buff r) =? 2 * length st') with false by (symmetry; apply Nat.eqb_neq; lia). cbn [length] in Hlp.
          destruct Hm as [Hm|[Hm [X|[X|X]]]]; [lia|contradiction|discriminate|].
          assert (full r = 1) by (unfold full; rewrite (proj2 (Nat.eqb_eq _ _)); [reflexivity|]; unfold n in *; lia). lia.
      + apply (Main (eof_reached r || false)); [rewrite orb_false_r; intros X; specialize (He X); rewrite He in Hp; discriminate|discriminate].
    - specialize (Hee eq_refl). replace (match d with [] => _ | _ => _ end) with
       (match take_blocks (S (length (buff r ++ d))) want (buff r ++ d) with
       | (None, rest) => Some (Err, mk_reader s' st' rest (eof_reached r || is_nil d))
       | (Some cs, rest) => let r' := mk_reader s' st' rest (eof_reached r || is_nil d) in if eof_reached r || is_nil d then Some (Ok cs, r') else
           match read_certs f (want - length cs) r' with Some (Ok cs', r'') => Some (Ok (cs ++ cs'), r'') | x => x end end) by (destruct d; reflexivity).
      apply Main; [intros _; exact Hee|]. intros ->. apply orb_true_r.
  Qed.

  Lemma cert_read_ok want r l : healthy r l -> done want l (cert_read want r).
  Proof. intros H. apply read_ok; [exact H|]. unfold mu, reads_left, full. destruct (_ =? _); lia. Qed.
  Lemma new_healthy size s l : 0 < size -> ~ In Broken (answers s) -> Forall good_item l -> pending s = text_of l -> healthy (new_reader size s) l.
  Proof.
    intros Hs Hb Hl Hp. split; [exact Hl|]. unfold new_reader. cbn [storage buff src eof_reached length app]. rewrite repeat_length.
    repeat split; auto; [lia|discriminate].
  Qed.
  (** What calls for [wants] certificates answer, if there are [cs] *)
  Fixpoint portions (wants : list nat) (cs : list cert) : list (res (list cert)) :=
    match wants with [] => [] | w :: ws => Ok (firstn w cs) :: portions ws (skipn w cs) end.
  Lemma parsed_parts k raws cs : parsed raws = Some cs -> parsed (firstn k raws) = Some (firstn k cs) /\ parsed (skipn k raws) = Some (skipn k cs).
  Proof.
    revert k cs. induction raws as [|raw raws IH]; intros k cs E; cbn in E.
    - injection E as <-. rewrite !firstn_nil, !skipn_nil. split; reflexivity.
    - destruct (parse raw) as [c|] eqn:P; [|discriminate]. destruct (parsed raws) as [ds|] eqn:D; [|discriminate]. injection E as <-.
      destruct k as [|k]; cbn [firstn skipn parsed]; [rewrite P, D; split; reflexivity|]. destruct (IH k ds eq_refl) as [-> ->]. rewrite P. split; reflexivity.
  Qed.
  Lemma cert_reads_ok wants : forall r l cs, healthy r l -> parsed (cert_raws l) = Some cs -> exists r', cert_reads cert parse_tbs parse_cert wants r = Some (portions wants cs, r').
  Proof.
    induction wants as [|w ws IH]; intros r l cs H P; [exists r; reflexivity|]. cbn [PemModel.cert_reads portions].
    pose proof (cert_read_ok w r l H) as D. unfold done in D. destruct (parsed_parts w _ _ P) as [P1 P2]. rewrite P1 in D. destruct D as (r' & l' & -> & H' & R).
    rewrite <- R in P2. destruct (IH r' l' _ H' P2) as (r2 & E). cbn [obind]. rewrite E. exists r2. reflexivity.
  Qed.
  Definition all_answer (raws : list bytes) : res (list cert) := match parsed raws with Some cs => Ok cs | None => Err end.
  Lemma read_all_ok : forall fuel r l, healthy r l -> length (cert_raws l) < fuel -> exists r', read_all cert parse_tbs parse_cert fuel r = Some (all_answer (cert_raws l), r').
  Proof.
    induction fuel as [|f IH]; intros r l H L; [lia|]. cbn [PemModel.read_all]. pose proof (cert_read_ok 1 r l H) as D. unfold done, all_answer in *.
    destruct (cert_raws l) as [|raw raws] eqn:R.
    - cbn in D. destruct D as (r' & l' & -> & _). exists r'. reflexivity.
    - cbn [firstn parsed skipn] in *. destruct (parse raw) as [c|].
      + destruct D as (r' & l' & -> & H' & R'). destruct (IH r' l' H' ltac:(rewrite R'; cbn [length] in L; lia)) as (r2 & ->). rewrite R'. unfold all_answer.
        destruct (parsed raws); exists r2; reflexivity.
      + destruct D as (r' & ->). exists r'. reflexivity.
  Qed.
  Lemma raws_short l : length (cert_raws l) <= length (text_of l).
  Proof.
    induction l as [|[j|t raw] l IH]; [cbn; lia| |].
    - change (text_of (Lines j :: l)) with (j ++ text_of l). rewrite app_length. cbn [cert_raws]. lia.
    - change (text_of (Block t raw :: l)) with (pem_encode t raw ++ text_of l). rewrite encode_open, !app_length. cbn [cert_raws length]. destruct (beqb t cert_type); cbn [length]; lia.
  Qed.
  Lemma deserialize_ok size l : 0 < size -> Forall good_item l -> deserialize_certs cert parse_tbs parse_cert size (text_of l) = Some (all_answer (cert_raws l)).
  Proof.
    intros Hs Hl. unfold deserialize_certs. pose proof (raws_short l).
    destruct (read_all_ok (S (length (text_of l))) (new_reader size (mk_source (text_of l) [])) l) as (r' & ->); [|lia|reflexivity].
    apply new_healthy; auto.
  Qed.
  Lemma good_cert_type : good_type cert_type.
  Proof. unfold good_type, cert_type. cbn. repeat split; intuition discriminate. Qed.
  Lemma round_trip size raw_of cs : 0 < size -> (forall c, In c cs -> parse (raw_of c) = Some c) ->
    deserialize_certs cert parse_tbs parse_cert size (serialize_certs cert raw_of cs) = Some (Ok cs).
  Proof.
    intros Hs Hp. set (l := map (fun c => Block cert_type (raw_of c)) cs).
    assert (E : serialize_certs cert raw_of cs = text_of l) by (unfold serialize_certs, write_certs, text_of, l; rewrite map_map; reflexivity).
    assert (G : Forall good_item l) by (apply Forall_forall; intros i Hi; apply in_map_iff in Hi as (c & <- & _); apply good_cert_type).
    rewrite E, (deserialize_ok size l Hs G). f_equal. unfold all_answer. assert (P : parsed (cert_raws l) = Some cs); [|now rewrite P].
    clear E G. unfold l. clear l. induction cs as [|c cs IH]; [reflexivity|]. cbn [map cert_raws]. replace (beqb cert_type cert_type) with true by (symmetry; apply beqb_refl).
    cbn [parsed]. rewrite (Hp c (or_introl eq_refl)), IH; [reflexivity|]. intros x Hx. apply Hp. right. exact Hx.
  Qed.
  Lemma from_pem_ok zero size s l : 0 < size -> ~ In Broken (answers s) -> Forall good_item l -> pending s = text_of l ->
    certificate_from_pem cert parse_tbs parse_cert zero size s =
    Some (match cert_raws l with [] => Ok zero | raw :: _ => match parse raw with Some c => Ok c | None => Err end end).
  Proof.
    intros Hs Hb Hl Hp. unfold certificate_from_pem. pose proof (cert_read_ok 1 _ l (new_healthy size s l Hs Hb Hl Hp)) as D. unfold done in D.
    destruct (cert_raws l) as [|raw raws]; cbn [firstn parsed] in D; [destruct D as (r' & l' & -> & _); reflexivity|].
    destruct (parse raw); [destruct D as (r' & l' & -> & _); reflexivity|destruct D as (r' & ->); reflexivity].
  Qed.
  Lemma key_round_trip (key : Type) (marshal_key : key -> bytes) (parse_key : bytes -> option key) k :
    parse_key (marshal_key k) = Some k -> rsa_key_from_pem key parse_key (rsa_key_to_pem key marshal_key k) = Ok k.
  Proof.
    intros P. unfold rsa_key_from_pem, rsa_key_to_pem. rewrite encode_open.
    pose proof (decode_full [] key_type (marshal_key k) [newline_b] []) as D. cbn [app] in D. rewrite D.
    - cbn [fst]. replace (beqb key_type key_type) with true by (symmetry; apply beqb_refl). now rewrite P.
    - apply lead_nil.
    - unfold good_type, key_type. cbn. repeat split; intuition discriminate.
    - right. reflexivity.
  Qed.
End Reader.
