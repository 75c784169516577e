(** Proofs about LocalModel: every schedule delivers every row once, and ends. *)
From Coq Require Import Permutation Strings.String.
From Verif Require Import Base BaseLemmas UtilModel BatchModel CsvModel LocalModel.
Local Open Scope list_scope.

Definition rd_items (r : reader) : list row_out := match r with Reading todo busy _ => busy ++ todo | _ => [] end.
Definition file_items (f : file_data) : list row_out := match f with Readable rows _ => rows | Unreadable => [] end.
Definition res_items (r : result) : list row_out := map (fun p => Parsed (fst p) (snd p)) (r_certs r) ++ repeat Expired (r_expired r).
Definition col_items (c : collector) : list row_out := match c with Receiving r _ | Sending r | Last r => res_items r | Closed => [] end.
Definition rows_in (s : state) : list row_out :=
  flat_map res_items (got s ++ out s) ++ col_items (col s) ++ flat_map rd_items (rds s) ++ flat_map file_items (feed s).
Definition rd_errs (r : reader) : nat := match r with Reading _ _ true => 0 | Reading _ _ false => 1 | Failing => 1 | _ => 0 end.
Definition file_errs (f : file_data) : nat := match f with Unreadable => 1 | Readable _ true => 0 | Readable _ false => 1 end.
Definition sum (l : list nat) : nat := list_sum l.
Definition errs_in (s : state) : nat := errors s + sum (map rd_errs (rds s)) + sum (map file_errs (feed s)).

Lemma split_nth {A} (l : list A) i x : nth_error l i = Some x -> exists a b, l = a ++ x :: b /\ length a = i /\ forall y, set_nth i y l = a ++ y :: b.
Proof.
  revert i. induction l as [|z l IH]; intros [|i] E; try discriminate.
  - injection E as ->. exists [], l. repeat split.
  - destruct (IH i E) as (a & b & -> & L & S). exists (z :: a), b. split; [reflexivity|]. split; [cbn; now rewrite L|]. intros y. cbn. now rewrite S.
Qed.
Lemma remove_split {A} (l : list A) j x : nth_error l j = Some x -> exists a b, l = a ++ x :: b /\ remove_nth j l = a ++ b.
Proof.
  intros E. destruct (split_nth l j x E) as (a & b & -> & L & _). exists a, b. split; [reflexivity|]. unfold remove_nth. subst j.
  rewrite firstn_app, Nat.sub_diag, firstn_all. cbn [firstn]. rewrite app_nil_r. f_equal.
  change (a ++ x :: b) with (a ++ [x] ++ b). rewrite app_assoc. replace (S (length a)) with (length (a ++ [x])) by (rewrite app_length; cbn; lia).
  rewrite skipn_app, skipn_all, Nat.sub_diag. reflexivity.
Qed.
Lemma flat_set {A B} (f : A -> list B) l i x : nth_error l i = Some x -> exists a b, flat_map f l = a ++ f x ++ b /\ forall y, flat_map f (set_nth i y l) = a ++ f y ++ b.
Proof.
  intros E. destruct (split_nth l i x E) as (a & b & -> & _ & S). exists (flat_map f a), (flat_map f b). split; [now rewrite flat_map_app|].
  intros y. rewrite S, flat_map_app. reflexivity.
Qed.
Lemma sum_app a b : sum (a ++ b) = sum a + sum b.
Proof. unfold sum. apply list_sum_app. Qed.
Lemma sum_cons a l : sum (a :: l) = a + sum l.
Proof. reflexivity. Qed.
Lemma sum_set {A} (f : A -> nat) l i x : nth_error l i = Some x -> exists n, sum (map f l) = n + f x /\ forall y, sum (map f (set_nth i y l)) = n + f y.
Proof.
  intros E. destruct (split_nth l i x E) as (a & b & -> & _ & S). exists (sum (map f a) + sum (map f b)). split.
  - rewrite map_app, sum_app. cbn [map]. rewrite sum_cons. lia.
  - intros y. rewrite S, map_app, sum_app. cbn [map]. rewrite sum_cons. lia.
Qed.
Lemma add_items x r : x <> Bad -> Permutation (res_items (add_row x r)) (x :: res_items r).
Proof.
  intros N. destruct x as [|c ch|]; [| |contradiction]; unfold res_items, add_row; cbn [r_certs r_expired].
  - cbn [repeat]. symmetry. apply Permutation_middle.
  - rewrite map_app. cbn [map fst snd]. rewrite <- app_assoc. symmetry. apply Permutation_middle.
Qed.
Lemma add_size x r : x <> Bad -> batch_size (add_row x r) = S (batch_size r).
Proof. intros N. destruct x as [|c ch|]; [| |contradiction]; unfold batch_size, add_row; cbn; rewrite ?app_length; cbn; lia. Qed.
Lemma size_items r : length (res_items r) = batch_size r.
Proof. unfold res_items, batch_size. rewrite app_length, map_length, repeat_length. reflexivity. Qed.

Lemma perm_in {A} (x : A) a b c d : Permutation (x :: a ++ b ++ c ++ d) (a ++ b ++ c ++ x :: d).
Proof. rewrite !app_assoc. apply Permutation_middle. Qed.

Section Delivery.
  Variable readers parsers batch preload : nat.
  Hypothesis Hr : 1 <= readers.
  Hypothesis Hp : 1 <= parsers.
  Hypothesis Hb : 1 <= batch.
  Hypothesis Hl : 1 <= preload.
  Notation step := (step parsers batch preload).
  Notation run := (run parsers batch preload).
  Notation start := (start readers).
  Variable files : list file_data.

  Definition fulls (l : list result) : Prop := Forall (fun r => batch_size r = batch) l.
  Definition shape (s : state) : Prop :=
    match col s with
    | Receiving r n => fulls (got s ++ out s) /\ batch_size r = n /\ n < batch
    | Sending r => fulls (got s ++ out s) /\ batch_size r = batch
    | Last r => fulls (got s ++ out s) /\ 0 < batch_size r < batch /\ forallb ended (rds s) = true
    | Closed => forallb ended (rds s) = true /\ exists l z, got s ++ out s = l ++ z /\ fulls l /\ (z = [] \/ exists r, z = [r] /\ 0 < batch_size r < batch)
    end.
  Record inv (s : state) : Prop := mk_inv {
    i_items : Permutation (rows_in s) (flat_map file_items files);
    i_errs : errs_in s = sum (map file_errs files);
    i_shape : shape s;
    i_ended : existsb ended (rds s) = true -> feed s = [];
    i_over : over s = true -> col s = Closed /\ out s = [];
    i_readers : length (rds s) = readers;
    i_dead : dead s = false }.

  Definition bad_end (s : state) : Prop := dead s = true /\ over s = false /\ In Bad (flat_map file_items files).

  Lemma start_inv : inv (start files).
  Proof.
    split; cbn [start LocalModel.start feed rds col out errors got over dead].
    - unfold rows_in. cbn [got out col rds feed LocalModel.start app flat_map col_items]. change (res_items no_result) with (@nil row_out). cbn [app].
      replace (flat_map rd_items (repeat Waiting readers)) with (@nil row_out); [apply Permutation_refl|]. clear Hr. induction readers; [reflexivity|]. cbn. auto.
    - unfold errs_in. cbn [LocalModel.start errors rds feed]. replace (sum (map rd_errs (repeat Waiting readers))) with 0; [reflexivity|]. clear Hr. induction readers; [reflexivity|]. cbn. auto.
    - cbn. split; [constructor|]. split; [reflexivity|lia].
    - intros E. exfalso. clear Hr. induction readers; [discriminate E|]. cbn in E. auto.
    - discriminate.
    - apply repeat_length.
    - reflexivity.
  Qed.
  Lemma not_ended l i r : nth_error l i = Some r -> ended r = false -> forallb ended l = true -> False.
  Proof. intros E N F. rewrite forallb_forall in F. apply nth_error_In in E. rewrite (F r E) in N. discriminate. Qed.
  Lemma set_ended l i x y : nth_error l i = Some x -> ended x = false -> ended y = false -> existsb ended (set_nth i y l) = existsb ended l.
  Proof. intros E N M. destruct (split_nth l i x E) as (a & b & -> & _ & S). rewrite S, !existsb_app. cbn. now rewrite N, M. Qed.
  Lemma step_inv s a s' : inv s -> step s a = Some s' -> bad_end s' \/ inv s'.
  Proof.
    intros [Hi He Hs Hd Ho Hc Hx] E. unfold LocalModel.step in E. destruct (dead s) eqn:D; [discriminate|]. destruct a as [i|i|i j|i|i| | |].
    - (* Take *)
      destruct (nth_error (rds s) i) as [r|] eqn:R; [|discriminate]. destruct r; try discriminate. destruct (feed s) as [|f fs] eqn:F; injection E as <-; right.
      + destruct (flat_set rd_items _ _ _ R) as (u & v & U & V). destruct (sum_set rd_errs _ _ _ R) as (n & X & Y).
        split; cbn [with_reader feed rds col out errors got over].
        * unfold rows_in in *. cbn [with_reader feed rds col out errors got over]. rewrite V, F. rewrite U, F in Hi. exact Hi.
        * unfold errs_in in *. cbn [with_reader feed rds col out errors got over]. rewrite Y, F. rewrite X, F in He. exact He.
        * unfold shape in *. cbn [with_reader col got out rds]. destruct (col s); auto; exfalso; [destruct Hs as (_ & _ & Hs)|destruct Hs as (Hs & _)]; exact (not_ended _ _ _ R eq_refl Hs).
        * auto.
        * auto.
        * rewrite set_nth_length. exact Hc.
        * first [reflexivity | exact D].
      + set (r := match f with Unreadable => Failing | Readable rows ok => Reading rows [] ok end).
        assert (Ri : rd_items r = file_items f) by (destruct f; reflexivity). assert (Re : rd_errs r = file_errs f) by (destruct f as [|? []]; reflexivity).
        assert (Rn : ended r = false) by (destruct f; reflexivity).
        destruct (flat_set rd_items _ _ _ R) as (u & v & U & V). destruct (sum_set rd_errs _ _ _ R) as (n & X & Y).
        split; cbn [feed rds col out errors got over].
        * unfold rows_in in *. cbn [feed rds col out errors got over]. rewrite V, Ri. rewrite U, F in Hi. cbn [flat_map rd_items app] in Hi. rewrite <- Hi.
          apply Permutation_app_head. apply Permutation_app_head. rewrite <- !app_assoc. apply Permutation_app_head.
          rewrite !app_assoc. apply Permutation_app_tail. apply Permutation_app_comm.
        * unfold errs_in in *. cbn [feed rds col out errors got over]. rewrite Y, Re. rewrite X, F in He. cbn [map rd_errs] in He. change (sum (file_errs f :: map file_errs fs)) with (file_errs f + sum (map file_errs fs)) in He. lia.
        * unfold shape in *. cbn [col got out rds]. destruct (col s); auto; exfalso; [destruct Hs as (_ & _ & Hs)|destruct Hs as (Hs & _)]; exact (not_ended _ _ _ R eq_refl Hs).
        * rewrite (set_ended _ _ _ _ R eq_refl Rn). intros Z. discriminate (Hd Z).
        * auto.
        * rewrite set_nth_length. exact Hc.
        * first [reflexivity | exact D].
    - (* Hand *)
      destruct (nth_error (rds s) i) as [r|] eqn:R; [|discriminate]. destruct r as [|todo busy ok| |]; try discriminate. destruct todo as [|x todo]; [discriminate|].
      destruct (length busy <? parsers); [|discriminate]. injection E as <-. right.
      destruct (flat_set rd_items _ _ _ R) as (u & v & U & V). destruct (sum_set rd_errs _ _ _ R) as (n & X & Y).
      split; cbn [with_reader feed rds col out errors got over].
      + unfold rows_in in *. cbn [with_reader feed rds col out errors got over]. rewrite V. rewrite U in Hi. cbn [rd_items] in *. rewrite <- (app_assoc busy). exact Hi.
      + unfold errs_in in *. cbn [with_reader feed rds col out errors got over]. rewrite Y. rewrite X in He. exact He.
      + unfold shape in *. cbn [with_reader col got out rds]. destruct (col s); auto; exfalso; [destruct Hs as (_ & _ & Hs)|destruct Hs as (Hs & _)]; exact (not_ended _ _ _ R eq_refl Hs).
      + rewrite (set_ended _ _ _ _ R) by reflexivity. exact Hd.
      + auto.
      + rewrite set_nth_length. exact Hc.
      + first [reflexivity | exact D].
    - (* Emit *)
      destruct (nth_error (rds s) i) as [r|] eqn:R; [|discriminate]. destruct r as [|todo busy ok| |]; try discriminate.
      destruct (nth_error busy j) as [x|] eqn:B; [|discriminate].
      assert (G : x <> Bad -> match col s with
         | Receiving r n => let r' := add_row x r in
             Some (mk_state (feed s) (set_nth i (Reading todo (remove_nth j busy) ok) (rds s))
                (if batch <=? S n then Sending r' else Receiving r' (S n)) (out s) (errors s) (got s) (over s) false)
         | _ => None end = Some s' -> bad_end s' \/ inv s').
      { clear E. intros Nb E. destruct (col s) as [r n|r|r|] eqn:C; try discriminate. cbv zeta in E. injection E as <-. right.
        destruct (flat_set rd_items _ _ _ R) as (u & v & U & V). destruct (sum_set rd_errs _ _ _ R) as (m & X & Y). destruct (remove_split _ _ _ B) as (b1 & b2 & B1 & B2).
        assert (Ci : col_items (if batch <=? S n then Sending (add_row x r) else Receiving (add_row x r) (S n)) = res_items (add_row x r)) by (destruct (batch <=? S n); reflexivity).
        split; cbn [feed rds col out errors got over].
        - unfold rows_in in *. cbn [feed rds col out errors got over]. rewrite V, Ci. rewrite U, C in Hi. cbn [rd_items col_items] in *. rewrite <- Hi.
          apply Permutation_app_head. rewrite (add_items x r Nb), B2, B1. rewrite <- !app_assoc. cbn [app]. apply perm_in.
        - unfold errs_in in *. cbn [feed rds col out errors got over]. rewrite Y. rewrite X in He. exact He.
        - unfold shape in *. cbn [col got out rds]. rewrite C in Hs. destruct Hs as (Hf & Hn & Hlt). pose proof (add_size x r Nb) as As. destruct (batch <=? S n) eqn:L.
          + apply Nat.leb_le in L. split; [exact Hf|lia].
          + apply Nat.leb_gt in L. split; [exact Hf|lia].
        - rewrite (set_ended _ _ _ _ R) by reflexivity. exact Hd.
        - intros O. destruct (Ho O) as [O1 _]. discriminate.
        - rewrite set_nth_length. exact Hc.
        - first [reflexivity | exact D]. }
      destruct x; [apply G; [discriminate|exact E]|apply G; [discriminate|exact E]|]. injection E as <-. left. split; [reflexivity|]. cbn [over]. split.
      + destruct (over s) eqn:O; [|reflexivity]. exfalso. destruct (Ho eq_refl) as [O1 _]. unfold shape in Hs. rewrite O1 in Hs. destruct Hs as (Hs & _). exact (not_ended _ _ _ R eq_refl Hs).
      + apply (Permutation_in _ Hi). unfold rows_in. do 2 (apply in_or_app; right). apply in_or_app. left. apply in_flat_map. eexists. split; [exact (nth_error_In _ _ R)|].
        cbn [rd_items]. apply in_or_app. left. exact (nth_error_In _ _ B).
    - (* Finish *)
      destruct (nth_error (rds s) i) as [r|] eqn:R; [|discriminate]. destruct r as [|todo busy ok| |]; try discriminate. destruct todo; [|discriminate]. destruct busy; [|discriminate].
      injection E as <-. right. destruct (flat_set rd_items _ _ _ R) as (u & v & U & V). destruct (sum_set rd_errs _ _ _ R) as (n & X & Y).
      assert (Rn : ended (if ok then Waiting else Failing) = false) by (destruct ok; reflexivity).
      split; cbn [with_reader feed rds col out errors got over].
      + unfold rows_in in *. cbn [with_reader feed rds col out errors got over]. rewrite V. rewrite U in Hi. destruct ok; exact Hi.
      + unfold errs_in in *. cbn [with_reader feed rds col out errors got over]. rewrite Y. rewrite X in He. destruct ok; exact He.
      + unfold shape in *. cbn [with_reader col got out rds]. destruct (col s); auto; exfalso; [destruct Hs as (_ & _ & Hs)|destruct Hs as (Hs & _)]; exact (not_ended _ _ _ R eq_refl Hs).
      + rewrite (set_ended _ _ _ _ R eq_refl Rn). exact Hd.
      + auto.
      + rewrite set_nth_length. exact Hc.
      + first [reflexivity | exact D].
    - (* Report *)
      destruct (nth_error (rds s) i) as [r|] eqn:R; [|discriminate]. destruct r; try discriminate.
      injection E as <-. right. destruct (flat_set rd_items _ _ _ R) as (u & v & U & V). destruct (sum_set rd_errs _ _ _ R) as (n & X & Y).
      split; cbn [feed rds col out errors got over].
      + unfold rows_in in *. cbn [feed rds col out errors got over]. rewrite V. rewrite U in Hi. exact Hi.
      + unfold errs_in in *. cbn [feed rds col out errors got over]. rewrite Y. rewrite X in He. cbn [rd_errs] in *. lia.
      + unfold shape in *. cbn [col got out rds]. destruct (col s); auto; exfalso; [destruct Hs as (_ & _ & Hs)|destruct Hs as (Hs & _)]; exact (not_ended _ _ _ R eq_refl Hs).
      + rewrite (set_ended _ _ _ _ R) by reflexivity. exact Hd.
      + auto.
      + rewrite set_nth_length. exact Hc.
      + first [reflexivity | exact D].
    - (* Push *)
      destruct (length (out s) <? preload); [|discriminate].
      assert (Mv : forall r : result, flat_map res_items (got s ++ out s ++ [r]) = flat_map res_items (got s ++ out s) ++ res_items r).
      { intros r. rewrite app_assoc, flat_map_app. cbn. now rewrite app_nil_r. }
      destruct (col s) as [r n|r|r|] eqn:C; try discriminate; injection E as <-; right; unfold shape in Hs; rewrite C in Hs; split; cbn [feed rds col out errors got over]; auto.
      + unfold rows_in in *. cbn [feed rds col out errors got over]. rewrite Mv. rewrite C in Hi. cbn [col_items] in *. change (res_items no_result) with (@nil row_out). cbn [app]. rewrite <- app_assoc. exact Hi.
      + unfold shape. cbn [col got out]. destruct Hs as (Hf & Hn). split; [|split; [reflexivity|lia]]. unfold fulls in *. rewrite app_assoc. apply Forall_app. auto.
      + intros O. destruct (Ho O) as [O1 _]. discriminate.
      + unfold rows_in in *. cbn [feed rds col out errors got over]. rewrite Mv. rewrite C in Hi. cbn [col_items] in *. cbn [app]. rewrite <- app_assoc. exact Hi.
      + unfold shape. cbn [col got out rds]. destruct Hs as (Hf & Hn & Hz). split; [exact Hz|]. exists (got s ++ out s), [r]. split; [apply app_assoc|]. split; [exact Hf|]. right. eauto.
      + intros O. destruct (Ho O) as [O1 _]. discriminate.
    - (* Close *)
      destruct (col s) as [r n|r|r|] eqn:C; try discriminate. destruct (forallb ended (rds s)) eqn:Z; [|discriminate]. injection E as <-. right.
      unfold shape in Hs. rewrite C in Hs. destruct Hs as (Hf & Hn & Hlt). split; cbn [feed rds col out errors got over]; auto.
      + unfold rows_in in *. cbn [feed rds col out errors got over]. rewrite C in Hi. cbn [col_items] in *. destruct (0 <? n) eqn:L; [exact Hi|].
        apply Nat.ltb_ge in L. assert (X : res_items r = []) by (apply length_zero_iff_nil; rewrite size_items; lia). rewrite X in Hi. exact Hi.
      + unfold shape. cbn [col got out rds]. destruct (0 <? n) eqn:L.
        * apply Nat.ltb_lt in L. split; [exact Hf|]. split; [lia|exact Z].
        * split; [exact Z|]. exists (got s ++ out s), []. split; [now rewrite app_nil_r|]. auto.
      + intros O. destruct (Ho O) as [O1 _]. discriminate.
    - (* Next *)
      destruct (over s) eqn:O; [discriminate|]. destruct (out s) as [|r o] eqn:Out.
      + destruct (col s) eqn:C; try discriminate. injection E as <-. right. split; cbn [feed rds col out errors got over]; auto.
        * unfold rows_in in *. cbn [feed rds col out errors got over]. rewrite Out, C in Hi. exact Hi.
        * unfold shape in *. cbn [col got out rds]. rewrite C, Out in Hs. exact Hs.
      + assert (P : 0 < batch_size r).
        { unfold shape in Hs. rewrite Out in Hs.
          assert (Fu : forall l, fulls (l ++ r :: o) -> 0 < batch_size r) by (intros l F; unfold fulls in F; apply Forall_app in F as [_ F]; inversion F; subst; lia).
          destruct (col s); try (destruct Hs as (Hs & _); exact (Fu _ Hs)). destruct Hs as (_ & l & z & Q & F & [->|(w & -> & W)]).
          - rewrite app_nil_r in Q. rewrite <- Q in F. exact (Fu _ F).
          - assert (I : In r (l ++ [w])) by (rewrite <- Q; apply in_or_app; right; left; reflexivity). apply in_app_or in I as [I|[<-|[]]]; [|lia].
            unfold fulls in F. rewrite Forall_forall in F. rewrite (F r I). lia. }
        assert (Em : is_empty r = false).
        { unfold is_empty, batch_size in *. destruct (r_certs r); [|reflexivity]. apply Nat.eqb_neq. cbn in P. lia. }
        rewrite Em in E. injection E as <-. right.
        assert (Eq : (got s ++ [r]) ++ o = got s ++ r :: o) by (rewrite <- app_assoc; reflexivity).
        split; cbn [feed rds col out errors got over]; auto.
        * unfold rows_in in *. cbn [feed rds col out errors got over]. rewrite Eq. rewrite Out in Hi. exact Hi.
        * unfold shape in *. cbn [col got out rds]. rewrite Eq. rewrite Out in Hs. exact Hs.
        * discriminate.
  Qed.
  Lemma run_inv acts : forall s s', inv s -> run s acts = Some s' -> bad_end s' \/ inv s'.
  Proof.
    induction acts as [|a acts IH]; intros s s' I E; cbn in E; [injection E as <-; auto|]. destruct (step s a) as [s1|] eqn:S; [|discriminate].
    destruct (step_inv _ _ _ I S) as [D|I1]; [|exact (IH _ _ I1 E)]. destruct acts as [|b acts]; cbn in E; [injection E as <-; auto|].
    unfold LocalModel.step in E at 1. destruct D as [D _]. rewrite D in E. discriminate.
  Qed.

  (** ** Every execution ends *)
  Definition rd_mu (r : reader) : nat := match r with Waiting => 1 | Ended => 0 | Failing => 2 | Reading todo busy _ => 3 + 5 * length todo + 4 * length busy end.
  Definition file_mu (f : file_data) : nat := match f with Unreadable => 2 | Readable rows _ => 3 + 5 * length rows end.
  Definition col_mu (c : collector) : nat := match c with Receiving _ n => 3 + 3 * n | Sending _ => 5 | Last _ => 2 | Closed => 0 end.
  Definition mu (s : state) : nat :=
    sum (map rd_mu (rds s)) + sum (map file_mu (feed s)) + col_mu (col s) + length (out s) + (if over s then 0 else 1) + (if dead s then 0 else 1).
  Lemma step_mu s a s' : step s a = Some s' -> mu s' < mu s.
  Proof.
    unfold LocalModel.step. destruct (dead s) eqn:D; [discriminate|]. unfold mu. rewrite D. destruct a as [i|i|i j|i|i| | |]; intros E.
    - destruct (nth_error (rds s) i) as [r|] eqn:R; [|discriminate]. destruct r; try discriminate. destruct (sum_set rd_mu _ _ _ R) as (n & X & Y).
      destruct (feed s) as [|f fs] eqn:F; injection E as <-; cbn [with_reader feed rds col out errors got over dead]; rewrite Y, X, ?F, ?D; cbn [rd_mu].
      + lia.
      + change (sum (map file_mu (f :: fs))) with (file_mu f + sum (map file_mu fs)). destruct f; cbn [rd_mu file_mu length]; lia.
    - destruct (nth_error (rds s) i) as [r|] eqn:R; [|discriminate]. destruct r as [|todo busy ok| |]; try discriminate. destruct todo as [|x todo]; [discriminate|].
      destruct (length busy <? parsers); [|discriminate]. injection E as <-. destruct (sum_set rd_mu _ _ _ R) as (n & X & Y).
      cbn [with_reader feed rds col out errors got over dead]. rewrite Y, X, ?D. cbn [rd_mu length]. rewrite app_length. cbn [length]. lia.
    - destruct (nth_error (rds s) i) as [r|] eqn:R; [|discriminate]. destruct r as [|todo busy ok| |]; try discriminate.
      destruct (nth_error busy j) as [x|] eqn:B; [|discriminate]. destruct (sum_set rd_mu _ _ _ R) as (n & X & Y).
      destruct (remove_split _ _ _ B) as (b1 & b2 & B1 & B2). assert (Lb : length busy = S (length (remove_nth j busy))) by (rewrite B2, B1, !app_length; cbn; lia).
      destruct x; [| |injection E as <-; cbn [feed rds col out errors got over dead]; lia].
      all: destruct (col s) as [r m|r|r|]; try discriminate; cbv zeta in E; injection E as <-; cbn [feed rds col out errors got over dead]; rewrite Y, X, ?D; cbn [rd_mu];
        destruct (batch <=? S m); cbn [col_mu]; lia.
    - destruct (nth_error (rds s) i) as [r|] eqn:R; [|discriminate]. destruct r as [|todo busy ok| |]; try discriminate. destruct todo; [|discriminate]. destruct busy; [|discriminate].
      injection E as <-. destruct (sum_set rd_mu _ _ _ R) as (n & X & Y). cbn [with_reader feed rds col out errors got over dead]. rewrite Y, X, ?D. destruct ok; cbn [rd_mu length]; lia.
    - destruct (nth_error (rds s) i) as [r|] eqn:R; [|discriminate]. destruct r; try discriminate. injection E as <-. destruct (sum_set rd_mu _ _ _ R) as (n & X & Y).
      cbn [feed rds col out errors got over dead]. rewrite Y, X, ?D. cbn [rd_mu]. lia.
    - destruct (length (out s) <? preload); [|discriminate]. destruct (col s); try discriminate; injection E as <-; cbn [feed rds col out errors got over dead]; rewrite ?D, app_length; cbn [length col_mu]; lia.
    - destruct (col s) as [r n|r|r|]; try discriminate. destruct (forallb ended (rds s)); [|discriminate]. injection E as <-. cbn [feed rds col out errors got over dead]. 
      destruct (0 <? n); cbn [col_mu]; lia.
    - destruct (over s) eqn:O; [discriminate|]. destruct (out s) as [|r o] eqn:Out.
      + destruct (col s); try discriminate. injection E as <-. cbn [feed rds col out errors got over dead]. rewrite ?D. cbn [length]. lia.
      + injection E as <-. cbn [feed rds col out errors got over dead]. rewrite ?D. cbn [length]. destruct (is_empty r); lia.
  Qed.
  Lemma run_mu acts : forall s s', run s acts = Some s' -> length acts + mu s' <= mu s.
  Proof.
    induction acts as [|a acts IH]; intros s s' E; cbn in E; [injection E as <-; cbn; lia|]. destruct (step s a) as [s1|] eqn:S; [|discriminate].
    pose proof (step_mu _ _ _ S). pose proof (IH _ _ E). cbn [length]. lia.
  Qed.
  Lemma run_app a b s : run s (a ++ b) = match run s a with Some s' => run s' b | None => None end.
  Proof. revert s. induction a as [|x a IH]; intros s; cbn; [reflexivity|]. destruct (step s x); [apply IH|reflexivity]. Qed.

  (** ** None waits for ever *)
  Lemma moves s : inv s -> dead s = false -> over s = false -> exists a s', step s a = Some s'.
  Proof.
    intros [Hi He Hs Hd Ho Hc Hx] D O. unfold LocalModel.step. rewrite D. destruct (out s) as [|r o] eqn:Out.
    2: { exists Next. cbn. rewrite O. eauto. }
    destruct (col s) as [r n|r|r|] eqn:C.
    2: { exists Push. cbn [length]. replace (0 <? preload) with true by (symmetry; apply Nat.ltb_lt; lia). eauto. }
    2: { exists Push. cbn [length]. replace (0 <? preload) with true by (symmetry; apply Nat.ltb_lt; lia). eauto. }
    2: { exists Next. rewrite O. eauto. }
    destruct (forallb ended (rds s)) eqn:Z; [exists Close; eauto|].
    assert (W : exists i r, nth_error (rds s) i = Some r /\ ended r = false).
    { clear - Z. induction (rds s) as [|x l IH]; [discriminate|]. cbn in Z. destruct (ended x) eqn:X; [|exists 0, x; auto].
      destruct (IH Z) as (i & y & A & B). exists (S i), y. auto. }
    destruct W as (i & y & R & N). destruct y as [|todo busy ok| |]; [| | |discriminate].
    - exists (Take i). rewrite R. destruct (feed s); eauto.
    - destruct busy as [|x busy].
      + destruct todo as [|x todo].
        * exists (Finish i). rewrite R. eauto.
        * exists (Hand i). rewrite R. cbn [length]. replace (0 <? parsers) with true by (symmetry; apply Nat.ltb_lt; lia). eauto.
      + exists (Emit i 0). rewrite R. cbn [nth_error]. destruct x; eauto.
    - exists (Report i). rewrite R. eauto.
  Qed.
  Definition stuck (s : state) : Prop := forall a, step s a = None.
  Lemma stuck_over acts s : run (start files) acts = Some s -> stuck s -> over s = true \/ dead s = true.
  Proof.
    intros E S. destruct (dead s) eqn:D; [auto|]. destruct (run_inv _ _ _ start_inv E) as [(D' & _)|I]; [congruence|]. destruct (over s) eqn:O; [auto|].
    destruct (moves s I D O) as (a & s' & E'). rewrite S in E'. discriminate.
  Qed.

  (** ** What NextBatch took in the end *)
  Definition certs_of (l : list row_out) : list (cert * list cert) := flat_map (fun x => match x with Parsed c ch => [(c, ch)] | _ => [] end) l.
  Definition expired_of (l : list row_out) : nat := length (filter (fun x => match x with Expired => true | _ => false end) l).
  Lemma certs_items r : certs_of (res_items r) = r_certs r.
  Proof.
    unfold res_items, certs_of. rewrite flat_map_app. replace (flat_map _ (repeat Expired (r_expired r))) with (@nil (cert * list cert)).
    - rewrite app_nil_r. induction (r_certs r) as [|[c ch] l IH]; [reflexivity|]. cbn. now rewrite IH.
    - induction (r_expired r); [reflexivity|]. cbn. auto.
  Qed.
  Lemma expired_items r : expired_of (res_items r) = r_expired r.
  Proof.
    unfold res_items, expired_of. rewrite filter_app, app_length. replace (filter _ (map _ (r_certs r))) with (@nil row_out).
    - cbn. induction (r_expired r); [reflexivity|]. cbn. auto.
    - induction (r_certs r) as [|[c ch] l IH]; [reflexivity|]. cbn. exact IH.
  Qed.
  Lemma perm_certs a b : Permutation a b -> Permutation (certs_of a) (certs_of b).
  Proof. intros P. unfold certs_of. now apply Permutation_flat_map. Qed.
  Lemma perm_filter {A} (f : A -> bool) a b : Permutation a b -> Permutation (filter f a) (filter f b).
  Proof.
    induction 1 as [|x a b P IH|x y a|a b c P1 IH1 P2 IH2]; cbn.
    - constructor.
    - destruct (f x); [now constructor|exact IH].
    - destruct (f x), (f y); try reflexivity; constructor.
    - now transitivity (filter f b).
  Qed.
  Lemma perm_expired a b : Permutation a b -> expired_of a = expired_of b.
  Proof. intros P. unfold expired_of. apply Permutation_length, perm_filter, P. Qed.
  Lemma certs_app a b : certs_of (a ++ b) = certs_of a ++ certs_of b.
  Proof. apply flat_map_app. Qed.
  Lemma expired_app a b : expired_of (a ++ b) = expired_of a + expired_of b.
  Proof. unfold expired_of. now rewrite filter_app, app_length. Qed.
  Definition rows : list row_out := flat_map file_items files.
  Lemma all_ended_feed s : inv s -> forallb ended (rds s) = true -> feed s = [] /\ flat_map rd_items (rds s) = [].
  Proof.
    intros I Z. split.
    - apply (i_ended s I). destruct (rds s) as [|x l] eqn:R; [pose proof (i_readers s I) as X; rewrite R in X; cbn in X; lia|]. cbn in *. apply andb_prop in Z as [-> _]. reflexivity.
    - induction (rds s) as [|x l IH]; [reflexivity|]. cbn in Z. apply andb_prop in Z as [X Z]. cbn. rewrite (IH Z). destruct x; try discriminate. reflexivity.
  Qed.
  Lemma over_all s : inv s -> over s = true -> Permutation (flat_map res_items (got s)) rows /\ errors s = sum (map file_errs files) /\
    exists l z, got s = l ++ z /\ fulls l /\ (z = [] \/ exists r, z = [r] /\ 0 < batch_size r < batch).
  Proof.
    intros I O. destruct (i_over s I O) as [C Out]. pose proof (i_shape s I) as Hs. unfold shape in Hs. rewrite C in Hs. destruct Hs as (Z & l & z & Q & F & W).
    destruct (all_ended_feed s I Z) as [Fe Ri]. pose proof (i_items s I) as P. unfold rows_in in P. rewrite C, Out, Fe, Ri in P. cbn [col_items flat_map app] in P.
    rewrite !app_nil_r in P. split; [exact P|]. split.
    - rewrite <- (i_errs s I). unfold errs_in. rewrite Fe. replace (sum (map rd_errs (rds s))) with 0; [cbn; lia|].
      clear - Z. induction (rds s) as [|x r IH]; [reflexivity|]. cbn in Z. apply andb_prop in Z as [X Z]. destruct x; try discriminate. cbn. apply IH, Z.
    - exists l, z. rewrite Out, app_nil_r in Q. auto.
  Qed.
  Lemma no_bad l : ~ In Bad (flat_map res_items l).
  Proof.
    intros I. apply in_flat_map in I as (r & _ & I). unfold res_items in I. apply in_app_or in I as [I|I].
    - apply in_map_iff in I as (p & X & _). discriminate.
    - apply repeat_spec in I. discriminate.
  Qed.
  Lemma sizes_sum l : sum (map batch_size l) = length (flat_map res_items l).
  Proof. induction l as [|r l IH]; [reflexivity|]. cbn [map flat_map]. rewrite app_length, size_items, <- IH. reflexivity. Qed.
  Lemma delivered acts s : run (start files) acts = Some s -> over s = true ->
    Permutation (flat_map r_certs (got s)) (certs_of rows) /\ sum (map r_expired (got s)) = expired_of rows /\ errors s = sum (map file_errs files) /\ ~ In Bad rows /\
    map batch_size (got s) = repeat batch (length rows / batch) ++ (if length rows mod batch =? 0 then [] else [length rows mod batch]) /\ (dead s = false).
  Proof.
    intros E O. destruct (run_inv _ _ _ start_inv E) as [(_ & O' & _)|I]; [congruence|].
    destruct (over_all s I O) as (P & Er & l & z & Q & F & W).
    assert (Nb : ~ In Bad rows) by (intros B; apply (no_bad (got s)); apply (Permutation_in _ (Permutation_sym P)), B).
    split; [|split; [|split; [exact Er|split; [exact Nb|split]]]].
    - rewrite <- (perm_certs _ _ P). clear. induction (got s) as [|r g IH]; [constructor|]. cbn [flat_map]. rewrite certs_app, certs_items. now apply Permutation_app_head.
    - rewrite <- (perm_expired _ _ P). clear. induction (got s) as [|r g IH]; [reflexivity|]. cbn [flat_map map]. rewrite expired_app, expired_items, sum_cons. lia.
    - pose proof (sizes_sum (got s)) as T. rewrite (Permutation_length P) in T. rewrite Q in *. rewrite map_app in *. rewrite sum_app in T.
      assert (Fl : map batch_size l = repeat batch (length l)) by (clear - F; induction F as [|r l X F IH]; [reflexivity|]; cbn; now rewrite X, IH).
      rewrite Fl in *. assert (Sr : sum (repeat batch (length l)) = batch * length l) by (clear; induction (length l) as [|n IH]; [cbn; lia|]; cbn [repeat]; rewrite sum_cons; lia).
      destruct W as [->|(r & -> & W)]; cbn [map] in *.
      + change (sum []) with 0 in T. rewrite <- T, Sr, Nat.add_0_r, Nat.mul_comm, Nat.div_mul, Nat.mod_mul by lia. reflexivity.
      + rewrite sum_cons in T. change (sum []) with 0 in T. rewrite <- T, Sr, Nat.add_0_r.
        rewrite <- (Nat.div_unique (batch * length l + batch_size r) batch (length l) (batch_size r)) by lia.
        rewrite <- (Nat.mod_unique (batch * length l + batch_size r) batch (length l) (batch_size r)) by lia.
        replace (batch_size r =? 0) with false by (symmetry; apply Nat.eqb_neq; lia). reflexivity.
    - apply I.
  Qed.
  Lemma ends_well acts s : run (start files) acts = Some s -> stuck s -> ~ In Bad rows -> over s = true.
  Proof.
    intros E S N. destruct (stuck_over acts s E S) as [O|D]; [exact O|]. destruct (run_inv _ _ _ start_inv E) as [(_ & _ & B)|I]; [contradiction|].
    rewrite (i_dead s I) in D. discriminate.
  Qed.
  Lemma panics acts s : run (start files) acts = Some s -> stuck s -> In Bad rows -> dead s = true /\ over s = false.
  Proof.
    intros E S B. destruct (run_inv _ _ _ start_inv E) as [(D & O & _)|I]; [auto|]. exfalso. destruct (stuck_over acts s E S) as [O|D].
    - exact (proj1 (proj2 (proj2 (proj2 (delivered acts s E O)))) B).
    - rewrite (i_dead s I) in D. discriminate.
  Qed.
  Lemma never_panics acts s : run (start files) acts = Some s -> ~ In Bad rows -> dead s = false.
  Proof. intros E N. destruct (run_inv _ _ _ start_inv E) as [(_ & _ & B)|I]; [contradiction|]. apply I. Qed.

  (** ** The size that is recorded *)
  Lemma recorded_iff l : forall a t, recorded a t l = true <-> exists n, 1 <= n <= length l /\ t = (a + Z.of_nat (sum (firstn n (map batch_size l))))%Z.
  Proof.
    induction l as [|r l IH]; intros a t; cbn [recorded].
    - split; [discriminate|]. intros (n & X & _). cbn in X. lia.
    - rewrite orb_true_iff, Z.eqb_eq, IH. split.
      + intros [X|(n & X & Y)].
        * exists 1. cbn [length]. split; [lia|]. cbn [map firstn]. rewrite sum_cons. change (sum []) with 0. lia.
        * exists (S n). cbn [length]. split; [lia|]. cbn [map firstn]. rewrite sum_cons. lia.
      + intros (n & X & Y). cbn [length] in X. destruct n as [|n]; [lia|]. cbn [map firstn] in Y. rewrite sum_cons in Y. destruct n as [|n].
        * left. cbn in Y. lia.
        * right. exists (S n). split; [lia|]. lia.
  Qed.
  Lemma sum_repeat n : sum (repeat batch n) = n * batch.
  Proof. induction n as [|n IH]; [reflexivity|]. cbn [repeat]. rewrite sum_cons. lia. Qed.
  Lemma firstn_repeat {A} (x : A) n m : firstn n (repeat x m) = repeat x (min n m).
  Proof. revert m. induction n as [|n IH]; intros [|m]; cbn; f_equal; auto. Qed.
  Lemma recorded_when acts s a t : run (start files) acts = Some s -> over s = true ->
    recorded a t (got s) = true <->
      (0 < length rows /\ t = (a + Z.of_nat (length rows))%Z) \/ exists k, 1 <= k /\ k * batch <= length rows /\ t = (a + Z.of_nat (k * batch))%Z.
  Proof.
    intros E O. rewrite recorded_iff. destruct (delivered acts s E O) as (_ & _ & _ & _ & M & _).
    assert (L : length (got s) = length rows / batch + (if length rows mod batch =? 0 then 0 else 1)).
    { rewrite <- (map_length batch_size), M, app_length, repeat_length. destruct (_ =? 0); reflexivity. }
    rewrite M, L. pose proof (Nat.div_mod (length rows) batch ltac:(lia)) as DM. pose proof (Nat.mod_upper_bound (length rows) batch ltac:(lia)) as MU.
    set (q := length rows / batch) in *. set (w := length rows mod batch) in *. split.
    - intros (n & X & Y). rewrite firstn_app, firstn_repeat, repeat_length, sum_app, sum_repeat in Y. destruct (Nat.le_gt_cases n q) as [C|C].
      + right. exists n. split; [lia|]. rewrite Nat.min_l in Y by lia. replace (n - q) with 0 in Y by lia. cbn [firstn] in Y. change (sum []) with 0 in Y. split; [nia|]. lia.
      + destruct (w =? 0) eqn:W; [lia|]. apply Nat.eqb_neq in W. replace (n - q) with 1 in Y by lia. rewrite Nat.min_r in Y by lia. cbn [firstn] in Y.
        rewrite sum_cons in Y. change (sum []) with 0 in Y. left. split; [lia|]. rewrite Y. f_equal. f_equal. lia.
    - intros [[P ->]|(k & K1 & K2 & ->)].
      + exists (q + (if w =? 0 then 0 else 1)). split.
        * destruct (w =? 0) eqn:W; [apply Nat.eqb_eq in W; destruct q; lia|]. lia.
        * rewrite firstn_all2 by (rewrite app_length, repeat_length; destruct (w =? 0); cbn; lia). rewrite sum_app, sum_repeat. f_equal. f_equal.
          destruct (w =? 0) eqn:W; [apply Nat.eqb_eq in W; change (sum []) with 0; lia|]. rewrite sum_cons. change (sum []) with 0. lia.
      + exists k. assert (k <= q) by (destruct (Nat.le_gt_cases k q); [assumption|nia]). split; [lia|]. rewrite firstn_app, firstn_repeat, repeat_length, sum_app, sum_repeat.
        rewrite Nat.min_l by lia. replace (k - q) with 0 by lia. cbn [firstn]. change (sum []) with 0. lia.
  Qed.
End Delivery.

(** ** Rows *)
From Verif Require Import CsvProofs.
Lemma split_byte_on b l : split_byte b l = split_on b l.
Proof. induction l as [|x l IH]; [reflexivity|]. cbn. now rewrite IH. Qed.
Lemma split_one b a : ~ In b a -> split_on b a = [a].
Proof.
  induction a as [|x a IH]; intros N; [reflexivity|]. cbn [split_on]. destruct (Byte.eqb x b) eqn:E; [apply byte_eqb_eq in E; subst; exfalso; apply N; left; reflexivity|].
  rewrite IH by (intros X; apply N; right; exact X). reflexivity.
Qed.
Lemma split_app b a l : ~ In b a -> split_on b (a ++ b :: l) = a :: split_on b l.
Proof.
  induction a as [|x a IH]; intros N; cbn [app split_on].
  - replace (Byte.eqb b b) with true by (symmetry; now apply byte_eqb_eq). reflexivity.
  - destruct (Byte.eqb x b) eqn:E; [apply byte_eqb_eq in E; subst; exfalso; apply N; left; reflexivity|].
    rewrite IH by (intros X; apply N; right; exact X). reflexivity.
Qed.
Lemma split_unique b parts : parts <> [] -> (forall p, In p parts -> ~ In b p) -> split_on b (join_with b parts) = parts.
Proof.
  induction parts as [|p parts IH]; intros N C; [contradiction|]. destruct parts as [|q parts].
  - cbn [join_with]. rewrite ?app_nil_r. apply split_one, C. left. reflexivity.
  - change (join_with b (p :: q :: parts)) with (p ++ b :: join_with b (q :: parts)). rewrite split_app by (apply C; left; reflexivity).
    rewrite IH; [reflexivity|discriminate|]. intros x X. apply C. right. exact X.
Qed.
Lemma split_two b l x y : split_on b l = [x; y] <-> l = x ++ b :: y /\ ~ In b x /\ ~ In b y.
Proof.
  split.
  - intros E. pose proof (split_join b l) as J. rewrite E in J. split; [symmetry; exact J|]. split; apply (split_clean b l); rewrite E; cbn; auto.
  - intros (-> & X & Y). rewrite split_app by exact X. now rewrite split_one by exact Y.
Qed.
Lemma cut_suffix_iff suf : forall l r, cut_suffix suf l = Some r <-> l = r ++ suf.
Proof.
  induction l as [|x l IH]; intros r; cbn [cut_suffix].
  - destruct (beqb [] suf) eqn:E.
    + apply beqb_eq in E. subst suf. split; [intros X; injection X as <-; reflexivity|]. intros X. symmetry in X. apply app_eq_nil in X as [-> _]. reflexivity.
    + split; [discriminate|]. intros X. symmetry in X. apply app_eq_nil in X as [_ X]. subst suf. rewrite beqb_refl in E. discriminate.
  - destruct (beqb (x :: l) suf) eqn:E.
    + apply beqb_eq in E. subst suf. split; [intros X; injection X as <-; reflexivity|]. intros X. destruct r as [|y r]; [reflexivity|].
      apply (f_equal (@length byte)) in X. rewrite app_length in X. cbn in X. lia.
    + destruct (cut_suffix suf l) as [r'|] eqn:C; cbn [option_map].
      * pose proof (proj1 (IH r') eq_refl) as C2. subst l. split; [intros X; injection X as <-; reflexivity|]. intros X. destruct r as [|y r].
        { cbn in X. exfalso. rewrite X in E. rewrite beqb_refl in E. discriminate. }
        cbn in X. injection X as <- X. apply app_inv_tail in X. now subst.
      * split; [discriminate|]. intros X. destruct r as [|y r].
        { cbn in X. exfalso. rewrite X in E. rewrite beqb_refl in E. discriminate. }
        cbn in X. injection X as <- X. apply IH in X. discriminate.
Qed.

(** ** The names of files *)
Definition ext (gz : bool) : bytes := if gz then list_byte_of_string ".gz"%string else list_byte_of_string ".csv"%string.
Definition range_name (gz : bool) (name a b : bytes) : Prop := name = a ++ x2d :: b ++ ext gz /\ ~ In x2d a /\ ~ In x2d b.
Lemma ext_clean gz : ~ In x2d (ext gz).
Proof. destruct gz; cbn; intuition discriminate. Qed.
Lemma file_info_cases name gz :
  (exists a b, range_name gz name a b /\ file_info name gz = match parse_int a, parse_int b with Some x, Some y => Ok (Some (x, y)) | _, _ => Err end) \/
  ((forall a b, ~ range_name gz name a b) /\ file_info name gz = Ok None).
Proof.
  unfold file_info. fold (ext gz). destruct (cut_suffix (ext gz) name) as [r|] eqn:C.
  - apply cut_suffix_iff in C. destruct (split_byte x2d r) as [|a [|b [|c l]]] eqn:S; rewrite split_byte_on in S.
    2-4: cycle 1.
    + right. split; [|reflexivity]. intros a b (N & A & B). subst name. rewrite app_comm_cons, app_assoc in N. apply app_inv_tail in N. subst r.
      rewrite (proj2 (split_two x2d _ a b)) in S by auto. discriminate.
    + left. exists a, b. apply split_two in S as (-> & A & B). split; [|reflexivity]. split; [|auto]. subst name. rewrite <- app_assoc. reflexivity.
    + right. split; [|reflexivity]. intros a' b' (N & A & B). subst name. rewrite app_comm_cons, app_assoc in N. apply app_inv_tail in N. subst r.
      rewrite (proj2 (split_two x2d _ a' b')) in S by auto. discriminate.
    + right. split; [|reflexivity]. intros a' b' (N & A & B). subst name. rewrite app_comm_cons, app_assoc in N. apply app_inv_tail in N. subst r.
      rewrite (proj2 (split_two x2d _ a' b')) in S by auto. discriminate.
  - right. split; [|reflexivity]. intros a b (N & A & B). rewrite app_comm_cons, app_assoc in N. apply cut_suffix_iff in N. congruence.
Qed.
Lemma range_unique gz name a b a' b' : range_name gz name a b -> range_name gz name a' b' -> a = a' /\ b = b'.
Proof.
  intros (N & A & B) (N' & A' & B'). rewrite N in N'. rewrite (app_comm_cons b), (app_comm_cons b'), !app_assoc in N'. apply app_inv_tail in N'.
  assert (E : split_on x2d (a ++ x2d :: b) = split_on x2d (a' ++ x2d :: b')) by now rewrite N'.
  rewrite (proj2 (split_two x2d _ a b)), (proj2 (split_two x2d _ a' b')) in E by auto. injection E as -> ->. auto.
Qed.
Definition bad_name (name : bytes) : Prop := exists gz a b, range_name gz name a b /\ (parse_int a = None \/ parse_int b = None).
Definition good_file (e : entry) (f : found) : Prop :=
  e_dir e = false /\ e_path e = fd_path f /\ exists a b, range_name (fd_gz f) (e_name e) a b /\ parse_int a = Some (fd_start f) /\ parse_int b = Some (fd_end f).
Lemma info_ok name gz x : file_info name gz = Ok x -> (forall i j, x = Some (i, j) <-> exists a b, range_name gz name a b /\ parse_int a = Some i /\ parse_int b = Some j) /\
  forall a b, range_name gz name a b -> parse_int a <> None /\ parse_int b <> None.
Proof.
  intros E. destruct (file_info_cases name gz) as [(a & b & R & F)|[N F]]; rewrite F in E.
  - destruct (parse_int a) as [i0|] eqn:A; [|discriminate]. destruct (parse_int b) as [j0|] eqn:B; [|discriminate]. injection E as <-. split.
    + intros i j. split.
      * intros X. injection X as <- <-. exists a, b. auto.
      * intros (a' & b' & R' & A' & B'). destruct (range_unique _ _ _ _ _ _ R R') as [<- <-]. congruence.
    + intros a' b' R'. destruct (range_unique _ _ _ _ _ _ R R') as [<- <-]. rewrite A, B. split; discriminate.
  - injection E as <-. split.
    + intros i j. split; [discriminate|]. intros (a & b & R & _). destruct (N a b R).
    + intros a b R. destruct (N a b R).
Qed.
Lemma info_bad name gz : file_info name gz = Err \/ exists x, file_info name gz = Ok x.
Proof. destruct (file_info_cases name gz) as [(a & b & R & F)|[N F]]; rewrite F; [|eauto]. destruct (parse_int a), (parse_int b); eauto. Qed.
Lemma info_err name gz : file_info name gz = Err -> bad_name name.
Proof.
  intros E. destruct (file_info_cases name gz) as [(a & b & R & F)|[N F]]; rewrite F in E; [|discriminate].
  exists gz, a, b. split; [exact R|]. destruct (parse_int a); [|auto]. destruct (parse_int b); [discriminate|auto].
Qed.
Lemma list_files_iff w : forall gz csv,
  ((exists e, In e w /\ e_dir e = false /\ bad_name (e_name e)) /\ list_files w gz csv = Err) \/
  ((forall e, In e w -> e_dir e = false -> ~ bad_name (e_name e)) /\ exists l, list_files w gz csv = Ok l /\
     forall f, In f l <-> In f gz \/ In f csv \/ exists e, In e w /\ good_file e f).
Proof.
  induction w as [|e w IH]; intros gz csv; cbn [list_files].
  - right. split; [intros e []|]. exists (gz ++ csv). split; [reflexivity|]. intros f. rewrite in_app_iff. split; [intros [X|X]; auto|]. intros [X|[X|(e & [] & _)]]; auto.
  - destruct (e_dir e) eqn:D.
    + destruct (IH gz csv) as [[(e' & I & B) E]|[N (l & E & L)]].
      * left. split; [|exact E]. exists e'. split; [right; exact I|exact B].
      * right. split; [intros e' [<-|I] X; [congruence|exact (N e' I X)]|]. exists l. split; [exact E|]. intros f. rewrite L. split.
        { intros [X|[X|(e' & X & Y)]]; [auto|auto|]. right. right. exists e'. split; [right; exact X|exact Y]. }
        { intros [X|[X|(e' & [<-|X] & Y)]]; [auto|auto|destruct Y as (Y & _); congruence|]. right. right. exists e'. auto. }
    + destruct (info_bad (e_name e) true) as [E1|[x E1]]; rewrite E1.
      { left. split; [|reflexivity]. exists e. split; [left; reflexivity|]. split; [exact D|]. exact (info_err _ _ E1). }
      destruct (info_bad (e_name e) false) as [E2|[y E2]]; rewrite E2.
      { left. split; [|reflexivity]. exists e. split; [left; reflexivity|]. split; [exact D|]. exact (info_err _ _ E2). }
      destruct (info_ok _ _ _ E1) as [O1 P1]. destruct (info_ok _ _ _ E2) as [O2 P2].
      assert (NB : ~ bad_name (e_name e)).
      { intros ([|] & a & b & R & X); [destruct (P1 a b R)|destruct (P2 a b R)]; destruct X; contradiction. }
      assert (G : forall f, good_file e f <-> (fd_path f = e_path e /\ if fd_gz f then x = Some (fd_start f, fd_end f) else y = Some (fd_start f, fd_end f))).
      { intros [p z i j]. unfold good_file. cbn [fd_path fd_gz fd_start fd_end]. destruct z.
        - rewrite O1. split; [intros (_ & <- & X); auto|]. intros (-> & X). auto.
        - rewrite O2. split; [intros (_ & <- & X); auto|]. intros (-> & X). auto. }
      cbv zeta. set (gz' := match x with Some (i, j) => gz ++ [mk_found (e_path e) true i j] | None => gz end).
      set (csv' := match y with Some (i, j) => csv ++ [mk_found (e_path e) false i j] | None => csv end).
      assert (Gz : forall f, In f gz' <-> In f gz \/ (fd_gz f = true /\ good_file e f)).
      { intros f. rewrite G. unfold gz'. destruct x as [[i j]|].
        - rewrite in_app_iff. cbn [In]. split.
          + intros [X|[<-|[]]]; [auto|]. right. cbn. auto.
          + intros [X|(Z & X & Y)]; [auto|]. rewrite Z in Y. injection Y as Y1 Y2. right. left. destruct f. cbn in *. subst. reflexivity.
        - split; [auto|]. intros [X|(Z & _ & Y)]; [auto|]. rewrite Z in Y. discriminate. }
      assert (Cz : forall f, In f csv' <-> In f csv \/ (fd_gz f = false /\ good_file e f)).
      { intros f. rewrite G. unfold csv'. destruct y as [[i j]|].
        - rewrite in_app_iff. cbn [In]. split.
          + intros [X|[<-|[]]]; [auto|]. right. cbn. auto.
          + intros [X|(Z & X & Y)]; [auto|]. rewrite Z in Y. injection Y as Y1 Y2. right. left. destruct f. cbn in *. subst. reflexivity.
        - split; [auto|]. intros [X|(Z & _ & Y)]; [auto|]. rewrite Z in Y. discriminate. }
      destruct (IH gz' csv') as [[(e' & I & B) E]|[N (l & E & L)]].
      * left. split; [|exact E]. exists e'. split; [right; exact I|exact B].
      * right. split; [intros e' [<-|I] X; [exact NB|exact (N e' I X)]|]. exists l. split; [exact E|]. intros f. rewrite L, Gz, Cz. split.
        { intros [[X|(_ & X)]|[[X|(_ & X)]|(e' & X & Y)]]; [auto| |auto| |].
          - right. right. exists e. split; [left; reflexivity|exact X].
          - right. right. exists e. split; [left; reflexivity|exact X].
          - right. right. exists e'. split; [right; exact X|exact Y]. }
        { intros [X|[X|(e' & [<-|X] & Y)]]; [auto|auto|destruct (fd_gz f); auto 6|]. right. right. exists e'. auto. }
Qed.

(** ** What a row is *)
Section Row.
  Variable b64 : bytes -> option bytes.
  Variable x509 : bytes -> option cert.
  Variable not_after : cert -> Z.
  Variable now : Z.
  Lemma chain_iff parts : forall l, parse_chain b64 x509 parts = Some l <-> Forall2 (fun p c => exists r, b64 p = Some r /\ x509 r = Some c) parts l.
  Proof.
    induction parts as [|p parts IH]; intros l; cbn [parse_chain].
    - split; [intros X; injection X as <-; constructor|]. inversion 1. reflexivity.
    - split.
      + destruct (b64 p) as [r|] eqn:B; [|discriminate]. destruct (x509 r) as [c|] eqn:X; [|discriminate]. destruct (parse_chain b64 x509 parts) as [cs|] eqn:P; [|discriminate].
        intros Y. injection Y as <-. constructor; [eauto|]. apply IH. reflexivity.
      + inversion 1 as [|? c ? cs (r & B & X) F]; subst. rewrite B, X. apply IH in F. rewrite F. reflexivity.
  Qed.
  Lemma expiration_iff f n : expiration f = Some n <-> exists a b, f = a ++ full_stop :: b /\ ~ In full_stop a /\ ~ In full_stop b /\ parse_int a = Some n.
  Proof.
    unfold expiration. split.
    - destruct (split_byte full_stop f) as [|a [|b [|]]] eqn:S; try discriminate. rewrite split_byte_on in S. apply split_two in S as (-> & A & B). eauto 6.
    - intros (a & b & F & A & B & P). rewrite split_byte_on, (proj2 (split_two full_stop f a b)) by auto. exact P.
  Qed.
  Lemma row_parsed fs c ch : parse_row b64 x509 not_after now fs = Parsed c ch <->
    (exists n, expiration (last fs []) = Some n /\ (now <= n * 1000000000)%Z) /\
    (exists s r, nth_error fs CertificateColumn = Some s /\ b64 s = Some r /\ x509 r = Some c) /\ (now <= not_after c)%Z /\
    exists parts, nth_error fs CertChainColumn = Some (join_with semicolon parts) /\ parts <> [] /\ (forall p, In p parts -> ~ In semicolon p) /\
      Forall2 (fun p c => exists r, b64 p = Some r /\ x509 r = Some c) parts ch.
  Proof.
    unfold parse_row. split.
    - destruct (expiration (last fs [])) as [n|]; [|discriminate]. destruct (n * 1000000000 <? now)%Z eqn:E; [discriminate|]. apply Z.ltb_ge in E.
      destruct (nth_error fs CertificateColumn) as [s|]; [|discriminate]. destruct (b64 s) as [r|] eqn:B; [|discriminate]. destruct (x509 r) as [c'|] eqn:X; [|discriminate].
      destruct (not_after c' <? now)%Z eqn:A; [discriminate|]. apply Z.ltb_ge in A. destruct (nth_error fs CertChainColumn) as [t|]; [|discriminate].
      destruct (parse_chain b64 x509 (split_byte semicolon t)) as [l|] eqn:P; [|discriminate]. intros Y. injection Y as <- <-.
      split; [eauto|]. split; [eauto|]. split; [exact A|]. rewrite split_byte_on in P. exists (split_on semicolon t). rewrite split_join. split; [reflexivity|].
      split; [apply split_ne|]. split; [intros p; apply split_clean|]. apply chain_iff, P.
    - intros ((n & -> & E) & (s & r & -> & B & X) & A & parts & -> & N & C & F). rewrite B, X. replace (n * 1000000000 <? now)%Z with false by (symmetry; apply Z.ltb_ge; lia).
      replace (not_after c <? now)%Z with false by (symmetry; apply Z.ltb_ge; lia). rewrite split_byte_on, split_unique by auto. apply chain_iff in F. rewrite F. reflexivity.
  Qed.
  Lemma row_expired fs : parse_row b64 x509 not_after now fs = Expired <->
    exists n, expiration (last fs []) = Some n /\ ((n * 1000000000 < now)%Z \/
      exists s r c, nth_error fs CertificateColumn = Some s /\ b64 s = Some r /\ x509 r = Some c /\ (not_after c < now)%Z /\ (now <= n * 1000000000)%Z).
  Proof.
    unfold parse_row. split.
    - destruct (expiration (last fs [])) as [n|]; [|discriminate]. destruct (n * 1000000000 <? now)%Z eqn:E; [apply Z.ltb_lt in E; eauto|]. apply Z.ltb_ge in E.
      destruct (nth_error fs CertificateColumn) as [s|]; [|discriminate]. destruct (b64 s) as [r|] eqn:B; [|discriminate]. destruct (x509 r) as [c'|] eqn:X; [|discriminate].
      destruct (not_after c' <? now)%Z eqn:A; [apply Z.ltb_lt in A; intros _; exists n; split; [reflexivity|]; right; exists s, r, c'; auto|].
      destruct (nth_error fs CertChainColumn) as [t|]; [|discriminate]. destruct (parse_chain _ _ _); discriminate.
    - intros (n & -> & [E|(s & r & c & -> & B & X & A & E)]).
      + replace (n * 1000000000 <? now)%Z with true by (symmetry; apply Z.ltb_lt; lia). reflexivity.
      + replace (n * 1000000000 <? now)%Z with false by (symmetry; apply Z.ltb_ge; lia). rewrite B, X. replace (not_after c <? now)%Z with true by (symmetry; apply Z.ltb_lt; lia). reflexivity.
  Qed.
End Row.
