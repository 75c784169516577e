(** Reader.Read of encoding/csv gives back the records that Writer.Write wrote. *)
From Verif Require LoadModel.
From Verif Require Import Base BaseLemmas UtilModel BatchModel CsvModel CsvProofs.

Notation doubled := LoadModel.double_quotes.
Lemma app_cut (p1 p2 : bytes) b q1 q2 : ~ In b p1 -> ~ In b p2 -> p1 ++ b :: q1 = p2 ++ b :: q2 -> p1 = p2 /\ q1 = q2.
Proof.
  revert p2. induction p1 as [|x p1 IH]; intros [|y p2] H1 H2 E; cbn in E.
  - injection E as ->. auto.
  - injection E as -> _. destruct H2. left. reflexivity.
  - injection E as -> _. destruct H1. left. reflexivity.
  - injection E as -> E. destruct (IH p2) as [-> ->]; auto; intros X; [apply H1|apply H2]; right; exact X.
Qed.
(** The first line of a text that has one *)
Definition lined (line : bytes) : Prop := exists p, line = p ++ [nl] /\ ~ In nl p.
Lemma lined_app a b : lined (a ++ b) -> b <> [] -> lined b.
Proof.
  intros (p & E & N) Hb. destruct (exists_last Hb) as (b' & x & ->). rewrite app_assoc in E. apply app_inj_tail in E as [<- ->]. exists b'. split; [reflexivity|].
  intros X. apply N. apply in_app_iff. auto.
Qed.
Lemma read_lined s : ~ In cr s -> In nl s -> exists line rest, read_line s = (line, false, rest) /\ lined line /\ s = line ++ rest.
Proof.
  intros Hc Hn. destruct (cut nl s) as [[p q]|] eqn:E; [|apply cut_none in E; contradiction]. apply cut_some in E as [-> N].
  exists (p ++ [nl]), q. split; [|split; [exists p; auto|rewrite <- app_assoc; reflexivity]].
  rewrite <- (app_nil_l (nl :: q)). apply read_line_nl; [exact N| |left; reflexivity].
  intros (r & ->). apply Hc. apply in_app_iff. left. apply in_app_iff. right. left. reflexivity.
Qed.
Lemma doubled_clean p : ~ In quote p -> doubled p = p.
Proof.
  induction p as [|x p IH]; intros N; [reflexivity|]. cbn. destruct (Byte.eqb x LoadModel.quote) eqn:E; [apply byte_eqb_eq in E; subst x; destruct N; left; reflexivity|].
  cbn. f_equal. apply IH. intros X. apply N. right. exact X.
Qed.
Lemma doubled_app a b : doubled (a ++ b) = doubled a ++ doubled b.
Proof. apply flat_map_app. Qed.
(** Up to the first quote *)
Lemma doubled_cut f tail p q : ~ In quote p -> doubled f ++ quote :: tail = p ++ quote :: q ->
  (f = p /\ q = tail) \/ exists f3, f = p ++ quote :: f3 /\ q = quote :: doubled f3 ++ quote :: tail.
Proof.
  intros N E. destruct (in_dec byte_eq_dec quote f) as [I|I].
  - apply in_split in I. assert (X : exists a b, f = a ++ quote :: b /\ ~ In quote a).
    { destruct (cut quote f) as [[a b]|] eqn:C; [apply cut_some in C as [-> C]; eauto|]. apply cut_none in C. destruct I as (a & b & ->). destruct C. apply in_app_iff. right. left. reflexivity. }
    destruct X as (a & b & -> & Na). right. exists b. rewrite doubled_app, (doubled_clean a Na) in E. cbn in E. change LoadModel.quote with quote in E. cbn in E. rewrite <- app_assoc in E. cbn in E.
    apply app_cut in E as [-> <-]; auto.
  - left. rewrite (doubled_clean f I) in E. apply app_cut in E as [-> ->]; auto.
Qed.
Lemma doubled_prefix line : forall f inp tail, ~ In quote line -> doubled f ++ quote :: tail = line ++ inp -> exists f', f = line ++ f' /\ inp = doubled f' ++ quote :: tail.
Proof.
  induction line as [|x line IH]; intros f inp tail N E; [exists f; auto|]. destruct f as [|y f]; cbn in E.
  - injection E as E _. destruct N. left. symmetry. exact E.
  - destruct (Byte.eqb y LoadModel.quote) eqn:Y.
    + injection E as E _. destruct N. left. symmetry. exact E.
    + injection E as -> E. destruct (IH f inp tail) as (f' & -> & ->); [intros X; apply N; right; exact X | exact E|]. exists f'. auto.
Qed.
Section Written.
  Variable space : bytes -> bool.
  Notation field := (LoadModel.csv_field space).
  (** A quoted field up to the comma or the end of the record *)
  Lemma quoted_field : forall fuel line inp acc cur f c t, length line + length inp < fuel -> ~ In cr (line ++ inp) -> lined line ->
    line ++ inp = doubled f ++ quote :: c :: t ->
    (c = nl -> fields fuel true line inp acc cur = Some (Ok (acc ++ [cur ++ f], t))) /\
    (c = comma -> In nl t -> exists fuel' line' inp', fields fuel true line inp acc cur = fields fuel' false line' inp' (acc ++ [cur ++ f]) [] /\
       length line' + length inp' < fuel' /\ lined line' /\ line' ++ inp' = t).
  Proof.
    induction fuel as [|fuel IH]; intros line inp acc cur f c t Hf Hc Hl E; [lia|]. cbn [fields].
    destruct (cut quote line) as [[p q]|] eqn:C.
    - apply cut_some in C as [-> N]. assert (Hq : q <> []).
      { intros ->. destruct Hl as (r & Er & _). apply app_inj_tail in Er as [_ Er]. discriminate Er. }
      destruct q as [|x q']; [contradiction|]. rewrite <- app_assoc in E. symmetry in E. apply doubled_cut in E; [|exact N].
      rewrite app_length in Hf. cbn [length] in Hf. destruct E as [[-> E]|(f3 & -> & E)].
      + cbn in E. injection E as -> E. split.
        * intros ->. change (Byte.eqb nl quote) with false. change (Byte.eqb nl comma) with false. cbv iota. change (Byte.eqb nl nl) with true.
          assert (Q : q' = []). { destruct Hl as (r & Er & Nr). destruct q' as [|y q']; [reflexivity|]. destruct (exists_last (l := y :: q')) as (b & z & Ez); [discriminate|]. rewrite Ez in Er.
            change (p ++ quote :: nl :: b ++ [z]) with (p ++ (quote :: nl :: b) ++ [z]) in Er. rewrite app_assoc in Er. apply app_inj_tail in Er as [Er _]. exfalso. apply Nr. rewrite <- Er. apply in_app_iff. right. right. left. reflexivity. }
          subst q'. cbn. cbn in E. subst inp. reflexivity.
        * intros -> Ht. change (Byte.eqb comma quote) with false. change (Byte.eqb comma comma) with true. cbv iota. exists fuel, q', inp. split; [reflexivity|]. split; [lia|]. split; [|exact E].
          apply (lined_app (p ++ [quote; comma])); [rewrite <- app_assoc; exact Hl|]. intros ->. destruct Hl as (r & Er & _). change (p ++ [quote; comma]) with (p ++ [quote] ++ [comma]) in Er. rewrite app_assoc in Er.
          apply app_inj_tail in Er as [_ Er]. discriminate Er.
      + cbn in E. injection E as -> E. change (Byte.eqb quote quote) with true. cbv iota.
        assert (Lq : lined q'). { apply (lined_app (p ++ [quote; quote])); [rewrite <- app_assoc; exact Hl|]. intros ->. destruct Hl as (r & Er & _). change (p ++ [quote; quote]) with (p ++ [quote] ++ [quote]) in Er. rewrite app_assoc in Er.
          apply app_inj_tail in Er as [_ Er]. discriminate Er. }
        assert (Cq : ~ In cr (q' ++ inp)). { intros X. apply Hc. rewrite <- app_assoc. apply in_app_iff. right. right. right. exact X. }
        destruct (IH q' inp acc (cur ++ p ++ [quote]) f3 c t ltac:(lia) Cq Lq E) as [I1 I2]. rewrite <- !app_assoc in I1, I2. cbn [app] in I1, I2. split; [exact I1|exact I2].
    - apply cut_none in C. symmetry in E. destruct (doubled_prefix line f inp (c :: t) C E) as (f' & -> & Ei).
      destruct line as [|x line]; [destruct Hl as (r & Er & _); destruct r; discriminate Er|].
      assert (Hin : c = nl \/ c = comma /\ In nl t -> In nl inp). { intros [->|[-> X]]; rewrite Ei; apply in_app_iff; right; right; [left; reflexivity|right; exact X]. }
      assert (Ci : ~ In cr inp) by (intros X; apply Hc; apply in_app_iff; right; exact X).
      split.
      + intros ->. destruct (read_lined inp Ci (Hin (or_introl eq_refl))) as (l' & i' & Er & Ll & Es). rewrite Er.
        assert (Hlen : length inp = length l' + length i') by (rewrite Es, app_length; reflexivity).
        destruct (IH l' i' acc (cur ++ x :: line) f' nl t) as [I1 _]; [cbn in Hf; lia | rewrite <- Es; exact Ci | exact Ll | rewrite <- Es; exact Ei|].
        rewrite (I1 eq_refl), <- app_assoc. reflexivity.
      + intros -> Ht. destruct (read_lined inp Ci (Hin (or_intror (conj eq_refl Ht)))) as (l' & i' & Er & Ll & Es). rewrite Er.
        assert (Hlen : length inp = length l' + length i') by (rewrite Es, app_length; reflexivity).
        destruct (IH l' i' acc (cur ++ x :: line) f' comma t) as [_ I2]; [cbn in Hf; lia | rewrite <- Es; exact Ci | exact Ll | rewrite <- Es; exact Ei|].
        destruct (I2 eq_refl Ht) as (fu & l2 & i2 & X1 & X2). exists fu, l2, i2. rewrite X1, <- app_assoc. auto.
  Qed.
  Lemma no_quotes f : LoadModel.needs_quotes space f = false -> ~ In quote f /\ ~ In nl f /\ ~ In comma f.
  Proof.
    destruct f as [|x f]; [intros _; repeat split; intros []|]. cbn [LoadModel.needs_quotes]. intros E. apply Bool.orb_false_iff in E as [E _]. apply Bool.orb_false_iff in E as [_ E].
    assert (Hn : forall b, In b (x :: f) -> (Byte.eqb b LoadModel.newline || Byte.eqb b x0d || Byte.eqb b LoadModel.quote || Byte.eqb b LoadModel.comma) = false).
    { intros b Hb. destruct (Byte.eqb b LoadModel.newline || Byte.eqb b x0d || Byte.eqb b LoadModel.quote || Byte.eqb b LoadModel.comma) eqn:Q; [|reflexivity].
      exfalso. assert (T : existsb (fun c => Byte.eqb c LoadModel.newline || Byte.eqb c x0d || Byte.eqb c LoadModel.quote || Byte.eqb c LoadModel.comma) (x :: f) = true) by (apply existsb_exists; eauto). congruence. }
    repeat split; intros X; apply Hn in X; discriminate X.
  Qed.
  (** One field *)
  Lemma one_field fuel line inp acc f c t : length line + length inp < fuel -> ~ In cr (line ++ inp) -> lined line ->
    line ++ inp = field f ++ c :: t ->
    (c = nl -> fields fuel false line inp acc [] = Some (Ok (acc ++ [f], t))) /\
    (c = comma -> In nl t -> exists fuel' line' inp', fields fuel false line inp acc [] = fields fuel' false line' inp' (acc ++ [f]) [] /\
       length line' + length inp' < fuel' /\ lined line' /\ line' ++ inp' = t).
  Proof.
    intros Hf Hc Hl E. destruct fuel as [|fuel]; [lia|]. cbn [fields]. unfold LoadModel.csv_field in E. destruct (LoadModel.needs_quotes space f) eqn:Q.
    - destruct line as [|x line]; [destruct Hl as (r & Er & _); destruct r; discriminate Er|]. cbn in E. injection E as -> E. rewrite <- app_assoc in E. cbn in E.
      change (Byte.eqb LoadModel.quote quote) with true. cbv iota.
      apply (quoted_field fuel line inp acc [] f c t); [cbn in Hf; lia | intros X; apply Hc; right; exact X | | exact E].
      apply (lined_app [LoadModel.quote]); [exact Hl|]. intros ->. destruct Hl as (r & Er & _). apply (app_inj_tail [] r) in Er as [_ Er]. discriminate Er.
    - destruct (no_quotes f Q) as (N1 & N2 & N3). split.
      + intros ->. destruct Hl as (r & -> & Nr). rewrite <- app_assoc in E. cbn in E. apply app_cut in E as [-> ->]; [|exact Nr|exact N2].
        assert (F : match f ++ [nl] with x :: _ => Byte.eqb x quote = false | [] => False end). { destruct f as [|x f]; [reflexivity|]. cbn. destruct (Byte.eqb x quote) eqn:X; [|reflexivity]. apply byte_eqb_eq in X. destruct N1. left. exact X. }
        destruct (f ++ [nl]) as [|x l] eqn:El; [destruct F|]. rewrite F, <- El.
        assert (Cn : cut comma (f ++ [nl]) = None). { apply cut_none. intros X. apply in_app_iff in X as [X|[X|[]]]; [exact (N3 X)|discriminate X]. }
        rewrite Cn, drop_nl_snoc. apply has_not in N1. rewrite N1. reflexivity.
      + intros -> Ht.
        assert (L : exists l2, line = f ++ comma :: l2 /\ l2 ++ inp = t).
        { destruct Hl as (r & -> & Nr). assert (Cr : cut comma r = Some (f, match cut comma r with Some (_, q) => q | None => [] end)).
          { destruct (cut comma r) as [[p q]|] eqn:C.
            - apply cut_some in C as [-> Np]. rewrite <- !app_assoc in E. cbn in E. apply app_cut in E as [-> _]; auto.
            - exfalso. apply cut_none in C. rewrite <- app_assoc in E. cbn in E. clear - E C Nr N2 N3. revert r E C Nr. induction f as [|y f IH]; intros [|z r] E C Nr; cbn in E; try discriminate E.
              + injection E as -> _. apply C. left. reflexivity.
              + injection E as <- _. apply N2. left. reflexivity.
              + injection E as -> E. apply (IH (fun X => N2 (or_intror X)) (fun X => N3 (or_intror X)) r E); intros X; [apply C|apply Nr]; right; exact X. }
          destruct (cut comma r) as [[p q]|] eqn:C; [|discriminate Cr]. injection Cr as ->. apply cut_some in C as [-> _]. exists (q ++ [nl]). rewrite <- !app_assoc in *. cbn in *. split; [reflexivity|].
          apply app_inv_head in E. injection E as <-. reflexivity. }
        destruct L as (l2 & -> & <-). assert (F : match f ++ comma :: l2 with x :: _ => Byte.eqb x quote = false | [] => False end).
        { destruct f as [|x f]; [reflexivity|]. cbn. destruct (Byte.eqb x quote) eqn:X; [|reflexivity]. apply byte_eqb_eq in X. destruct N1. left. exact X. }
        assert (Cc : cut comma (f ++ comma :: l2) = Some (f, l2)) by (apply cut_some; auto).
        destruct (f ++ comma :: l2) as [|x l] eqn:El; [destruct F|]. rewrite F, Cc. assert (Hn : has quote f = false) by (apply has_not; exact N1). rewrite Hn.
        assert (Hlen : length f + S (length l2) = S (length l)) by (apply (f_equal (@length byte)) in El; rewrite app_length in El; exact El).
        exists fuel, l2, inp. split; [reflexivity|]. split; [cbn in Hf; lia|]. split; [|reflexivity].
        apply (lined_app (f ++ [comma])); [rewrite <- app_assoc; cbn [app]; rewrite El; exact Hl|]. intros ->. rewrite <- El in Hl. destruct Hl as (r & Er & _). apply app_inj_tail in Er as [_ Er]. discriminate Er.
  Qed.
  Notation row_text := (LoadModel.join_fields field).
  Lemma one_row row : row <> [] -> forall fuel line inp acc t, length line + length inp < fuel -> ~ In cr (line ++ inp) -> lined line ->
    line ++ inp = row_text row ++ nl :: t -> fields fuel false line inp acc [] = Some (Ok (acc ++ row, t)).
  Proof.
    induction row as [|f row IH]; intros Hne fuel line inp acc t Hf Hc Hl E; [congruence|]. destruct row as [|g row].
    - cbn [LoadModel.join_fields] in E. apply (one_field fuel line inp acc f nl t Hf Hc Hl E). reflexivity.
    - change (row_text (f :: g :: row)) with (field f ++ comma :: row_text (g :: row)) in E. rewrite <- app_assoc in E. cbn [app] in E.
      destruct (one_field fuel line inp acc f comma _ Hf Hc Hl E) as [_ I]. destruct (I eq_refl) as (fu & l2 & i2 & X1 & X2 & X3 & X4); [apply in_app_iff; right; left; reflexivity|].
      rewrite X1, (IH ltac:(discriminate) fu l2 i2 (acc ++ [f]) t X2); [rewrite <- app_assoc; reflexivity | | exact X3 | exact X4].
      intros X. apply Hc. rewrite E, X4 in *. apply in_app_iff. right. right. exact X.
  Qed.
  Lemma row_start row : row <> [] -> row <> [[]] -> match row_text row with x :: _ => x <> nl | [] => False end.
  Proof.
    destruct row as [|f [|g row]]; intros H1 H2; [congruence| |].
    - cbn [LoadModel.join_fields]. unfold LoadModel.csv_field. destruct (LoadModel.needs_quotes space f) eqn:Q; [cbn; discriminate|].
      destruct f as [|x f]; [congruence|]. intros ->. apply no_quotes in Q as (_ & N & _). apply N. left. reflexivity.
    - cbn [LoadModel.join_fields]. unfold LoadModel.csv_field at 1. destruct (LoadModel.needs_quotes space f) eqn:Q; [cbn; discriminate|].
      destruct f as [|x f]; [cbn; discriminate|]. cbn. intros ->. apply no_quotes in Q as (_ & N & _). apply N. left. reflexivity.
  Qed.
  Theorem written_records rows : Forall (fun row => row <> [] /\ row <> [[]] /\ forall f, In f row -> ~ In cr f) rows ->
    forall fuel, length rows < fuel -> csv_all fuel (LoadModel.csv_file space rows) = Some (Ok rows).
  Proof.
    assert (Hcr : forall row, (forall f, In f row -> ~ In cr f) -> ~ In cr (row_text row)).
    { intros row H. assert (Hf : forall f, ~ In cr f -> ~ In cr (field f)).
      { intros f N. unfold LoadModel.csv_field. destruct (LoadModel.needs_quotes space f); [|exact N]. intros [X|X]; [discriminate X|]. apply in_app_iff in X as [X|[X|[]]]; [|discriminate X].
        apply in_flat_map in X as (c & X1 & X2). destruct (Byte.eqb c LoadModel.quote) eqn:Q; [destruct X2 as [X2|[X2|[]]]; discriminate X2|]. destruct X2 as [X2|[]]. subst c. exact (N X1). }
      induction row as [|f [|g row] IH]; [intros []| |].
      - apply Hf, H. left. reflexivity.
      - change (row_text (f :: g :: row)) with (field f ++ comma :: row_text (g :: row)). intros X. apply in_app_iff in X as [X|[X|X]]; [revert X; apply Hf, H; left; reflexivity | discriminate X | revert X; apply IH; intros h Hh; apply H; right; exact Hh]. }
    induction 1 as [|row rows (H1 & H2 & H3) Hr IH]; intros fuel Hf; (destruct fuel as [|fuel]; [cbn in Hf; lia|]); [reflexivity|].
    cbn [csv_all]. set (t := LoadModel.csv_file space rows) in *. assert (Et : LoadModel.csv_file space (row :: rows) = row_text row ++ nl :: t).
    { unfold LoadModel.csv_file. cbn [map concat]. rewrite <- app_assoc. reflexivity. }
    assert (Ct : ~ In cr t).
    { unfold t, LoadModel.csv_file. intros X. apply in_concat in X as (l & X1 & X2). apply in_map_iff in X1 as (r & <- & X1). rewrite Forall_forall in Hr. apply in_app_iff in X2 as [X2|[X2|[]]]; [|discriminate X2].
      revert X2. apply Hcr. apply (Hr r X1). }
    assert (Cs : ~ In cr (row_text row ++ nl :: t)) by (intros X; apply in_app_iff in X as [X|[X|X]]; [revert X; apply Hcr; exact H3 | discriminate X | exact (Ct X)]).
    destruct (read_lined (row_text row ++ nl :: t) Cs) as (line & rest & R1 & R2 & R3); [apply in_app_iff; right; left; reflexivity|].
    unfold csv_record. rewrite Et. cbn [csv_read]. rewrite R1.
    assert (Hd : (length (drop_nl line) =? 0) = false).
    { destruct R2 as (p & -> & Np). rewrite drop_nl_snoc. destruct p as [|x p]; [|reflexivity]. exfalso. pose proof (row_start row H1 H2) as S. destruct (row_text row) as [|y q]; [exact S|]. cbn in R3. injection R3 as -> _. apply S. reflexivity. }
    rewrite Hd, (one_row row H1 _ line rest [] t); [| lia | rewrite <- R3; exact Cs | exact R2 | symmetry; exact R3].
    cbn [app]. rewrite (IH fuel) by (cbn in Hf; lia). reflexivity.
  Qed.
End Written.
