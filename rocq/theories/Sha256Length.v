(** SHA-256 gives 32 bytes. *)
From Verif Require Import Base Sha256.

Definition wordp (w : word) : Prop := length w = 32.
Lemma xor3_length x : forall y z : word, length x = length y -> length y = length z -> length (xor3 x y z) = length x.
Proof. induction x as [|a x IH]; intros [|b y] [|c z] H1 H2; try discriminate; [reflexivity|]. cbn in *. f_equal. apply IH; lia. Qed.
Lemma ch_length x : forall y z : word, length x = length y -> length y = length z -> length (ch x y z) = length x.
Proof. induction x as [|a x IH]; intros [|b y] [|c z] H1 H2; try discriminate; [reflexivity|]. cbn in *. f_equal. apply IH; lia. Qed.
Lemma maj_length x : forall y z : word, length x = length y -> length y = length z -> length (maj x y z) = length x.
Proof. induction x as [|a x IH]; intros [|b y] [|c z] H1 H2; try discriminate; [reflexivity|]. cbn in *. f_equal. apply IH; lia. Qed.
Lemma add_carry_length x : forall (y : word) c, length x = length y -> length (add_carry c x y) = length x.
Proof. induction x as [|a x IH]; intros [|b y] c H1; try discriminate; [reflexivity|]. cbn [add_carry length]. f_equal. apply IH. cbn in H1. lia. Qed.
Lemma add32_word x y : wordp x -> wordp y -> wordp (add32 x y).
Proof. unfold wordp, add32. intros Hx Hy. rewrite add_carry_length; lia. Qed.
Lemma rotr_length n (x : word) : length (rotr n x) = length x.
Proof. unfold rotr. rewrite app_length, skipn_length, firstn_length. lia. Qed.
Lemma shr_length n (x : word) : n <= length x -> length (shr n x) = length x.
Proof. intros H. unfold shr. rewrite app_length, skipn_length, repeat_length. lia. Qed.
Lemma bs0_word x : wordp x -> wordp (bs0 x).
Proof. unfold wordp, bs0. intros H. rewrite xor3_length; rewrite ?rotr_length; lia. Qed.
Lemma bs1_word x : wordp x -> wordp (bs1 x).
Proof. unfold wordp, bs1. intros H. rewrite xor3_length; rewrite ?rotr_length; lia. Qed.
Lemma ss0_word x : wordp x -> wordp (ss0 x).
Proof. unfold wordp, ss0. intros H. rewrite xor3_length; rewrite ?rotr_length, ?shr_length; lia. Qed.
Lemma ss1_word x : wordp x -> wordp (ss1 x).
Proof. unfold wordp, ss1. intros H. rewrite xor3_length; rewrite ?rotr_length, ?shr_length; lia. Qed.

Lemma nth_word ws i : Forall wordp ws -> i < length ws -> wordp (nth i ws []).
Proof. intros H Hi. apply (proj1 (Forall_forall _ _) H). apply nth_In, Hi. Qed.
Lemma schedule_words n : forall ws, length ws = 16 -> Forall wordp ws -> Forall wordp (schedule n ws).
Proof.
  induction n as [|n IH]; intros ws L H; [constructor|]. cbn [schedule].
  assert (W : wordp (add32 (add32 (ss1 (nth 14 ws [])) (nth 9 ws [])) (add32 (ss0 (nth 1 ws [])) (nth 0 ws [])))).
  { repeat apply add32_word; try apply ss1_word; try apply ss0_word; apply nth_word; auto; lia. }
  constructor; [exact W|]. apply IH.
  - rewrite app_length. destruct ws; [discriminate|]. cbn in *. lia.
  - apply Forall_app. split; [|repeat constructor; exact W]. destruct ws; [constructor|]. inversion H. assumption.
Qed.

Definition statep (st : list word) : Prop := length st = 8 /\ Forall wordp st.
Lemma round_state st kw : statep st -> wordp (fst kw) -> wordp (snd kw) -> statep (round st kw).
Proof.
  intros [L H] Hk Hw. destruct st as [|a [|b [|c [|d [|e [|f [|g [|h [|? ?]]]]]]]]]; try discriminate.
  repeat match goal with H : Forall _ (_ :: _) |- _ => inversion H; clear H; subst end.
  assert (C : wordp (ch e f g)) by (unfold wordp in *; rewrite ch_length; lia).
  assert (M : wordp (maj a b c)) by (unfold wordp in *; rewrite maj_length; lia).
  split; [reflexivity|]. cbn [round]. repeat (apply Forall_cons || apply Forall_nil); try assumption;
  repeat apply add32_word; try assumption; try (apply bs1_word; assumption); try (apply bs0_word; assumption).
Qed.
Lemma rounds_state kws : forall st, statep st -> Forall (fun kw => wordp (fst kw) /\ wordp (snd kw)) kws -> statep (fold_left round kws st).
Proof.
  induction kws as [|kw kws IH]; intros st H F; [exact H|]. inversion F as [|? ? [H1 H2] F']. cbn [fold_left]. apply IH; [|assumption]. apply round_state; assumption.
Qed.
Lemma add_state_state a b : statep a -> statep b -> statep (add_state a b).
Proof.
  intros [La Ha] [Lb Hb]. split.
  - unfold add_state. rewrite map_length, combine_length. lia.
  - unfold add_state. apply Forall_forall. intros x Hx. apply in_map_iff in Hx. destruct Hx as ((u & v) & <- & Hx).
    assert (Hu := in_combine_l _ _ _ _ Hx). assert (Hv := in_combine_r _ _ _ _ Hx). cbn [fst snd]. apply add32_word.
    + exact (proj1 (Forall_forall _ _) Ha _ Hu).
    + exact (proj1 (Forall_forall _ _) Hb _ Hv).
Qed.
Lemma K_words : Forall wordp K.
Proof. repeat constructor. Qed.
Lemma IV_state : statep IV.
Proof. split; [reflexivity|repeat constructor]. Qed.
Lemma firstn_forall {A} (P : A -> Prop) n l : Forall P l -> Forall P (firstn n l).
Proof. intros H. rewrite <- (firstn_skipn n l) in H. apply Forall_app in H. tauto. Qed.
Lemma skipn_forall {A} (P : A -> Prop) n l : Forall P l -> Forall P (skipn n l).
Proof. intros H. rewrite <- (firstn_skipn n l) in H. apply Forall_app in H. tauto. Qed.

Lemma blocks_state fuel : forall ws st k, length ws = 16 * k -> Forall wordp ws -> statep st -> statep (compress_blocks fuel ws st).
Proof.
  induction fuel as [|fuel IH]; intros ws st k L H S; [exact S|]. cbn [compress_blocks]. destruct ws as [|w ws]; [exact S|].
  set (all := w :: ws) in *. destruct k as [|k]; [discriminate|].
  assert (L1 : length (firstn 16 all) = 16) by (apply firstn_length_le; lia).
  apply (IH _ _ k); [rewrite skipn_length; lia|apply skipn_forall, H|]. apply add_state_state; [exact S|]. apply rounds_state; [exact S|].
  apply Forall_forall. intros (u, v) Hx. assert (Hu := in_combine_l _ _ _ _ Hx). assert (Hv := in_combine_r _ _ _ _ Hx). split; cbn [fst snd].
  - exact (proj1 (Forall_forall _ _) K_words _ Hu).
  - apply in_app_or in Hv. destruct Hv as [Hv|Hv].
    + exact (proj1 (Forall_forall _ _) (firstn_forall _ _ _ H) _ Hv).
    + exact (proj1 (Forall_forall _ _) (schedule_words 48 _ L1 (firstn_forall _ _ _ H)) _ Hv).
Qed.

Lemma byte_bits_length b : length (byte_bits b) = 8.
Proof. unfold byte_bits. destruct (Byte.to_bits b) as (? & ? & ? & ? & ? & ? & ? & ?). reflexivity. Qed.
Lemma words_spec k : forall b : bytes, length b = 4 * k -> length (words b) = k /\ Forall wordp (words b).
Proof.
  induction k as [|k IH]; intros b L.
  - destruct b; [|discriminate]. split; [reflexivity|constructor].
  - destruct b as [|a [|b' [|c [|d r]]]]; cbn in L; try lia. destruct (IH r) as [H1 H2]; [lia|]. cbn [words]. split; [cbn; lia|].
    constructor; [|exact H2]. unfold wordp. rewrite !app_length, !byte_bits_length. reflexivity.
Qed.
Lemma bits_bytes_length k : forall b : list bool, length b = 8 * k -> length (bits_bytes b) = k.
Proof.
  induction k as [|k IH]; intros b L.
  - destruct b; [reflexivity|discriminate].
  - destruct b as [|a0 [|a1 [|a2 [|a3 [|a4 [|a5 [|a6 [|a7 r]]]]]]]]; cbn in L; try lia. cbn [bits_bytes length]. f_equal. apply IH. lia.
Qed.
Lemma bits_of_N_length k : forall n, length (bits_of_N k n) = k.
Proof. induction k as [|k IH]; intros n; [reflexivity|]. cbn [bits_of_N length]. f_equal. apply IH. Qed.
Lemma pad_length m : exists k, length (pad m) = 64 * k.
Proof.
  unfold pad. rewrite !app_length, repeat_length. unfold be_bytes. rewrite rev_length, (bits_bytes_length 8) by apply bits_of_N_length.
  set (n := N.of_nat (length m)). set (z := ((119 - n mod 64) mod 64)%N).
  exists (N.to_nat ((n + 1 + z + 8) / 64)). cbn [length]. assert (D : ((n + 1 + z + 8) mod 64 = 0)%N).
  { unfold z. assert (B : (n mod 64 < 64)%N) by (apply N.mod_lt; lia). assert (E := N.div_mod n 64 ltac:(lia)).
    set (r := (n mod 64)%N) in *. set (u := (119 - r)%N). assert (U : (u + r = 119)%N) by (unfold u; lia).
    assert (F := N.div_mod u 64 ltac:(lia)). set (w := (u mod 64)%N) in *.
    replace (n + 1 + w + 8)%N with ((n / 64 + 2 - u / 64) * 64)%N; [apply N.mod_mul; lia|]. nia. }
  assert (E := N.div_mod (n + 1 + z + 8) 64 ltac:(lia)). unfold n in *. lia.
Qed.
Theorem sha256_length m : length (sha256 m) = 32.
Proof.
  unfold sha256. destruct (pad_length m) as [k Hk]. destruct (words_spec (16 * k) (pad m)) as [L W]; [lia|].
  destruct (blocks_state (length (words (pad m))) (words (pad m)) IV k) as [L8 H]; [lia|exact W|exact IV_state|].
  set (st := compress_blocks _ _ _) in *. clearbody st. assert (G : length (flat_map be_bytes st) = 4 * length st); [|lia].
  clear L8. induction st as [|w st IH]; [reflexivity|]. inversion H as [|? ? Hw H']. cbn [flat_map length]. rewrite app_length, IH by assumption.
  unfold be_bytes. rewrite rev_length, (bits_bytes_length 4) by exact Hw. lia.
Qed.
