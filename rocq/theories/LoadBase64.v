(** Which texts are base64 of which bytes. *)
From Coq Require Import String ZArith.
From Verif Require Import Base BaseLemmas UtilModel DbModel LoadModel LoadProofs.
Local Open Scope list_scope.
Definition letters64 : bytes := list_byte_of_string "ABCDEFGHIJKLMNOPQRSTUVWXYZabcdefghijklmnopqrstuvwxyz0123456789+/".
Definition digit64 (c : byte) (v : N) : Prop := nth_error letters64 (N.to_nat v) = Some c.
Inductive text64 : bytes -> bytes -> Prop :=
| text_none : text64 [] []
| text_one a b va vb x : digit64 a va -> digit64 b vb -> Byte.to_N x = (va * 4 + vb / 16)%N -> text64 [a; b; x3d; x3d] [x]
| text_two a b c va vb vc x y : digit64 a va -> digit64 b vb -> digit64 c vc -> Byte.to_N x = (va * 4 + vb / 16)%N -> Byte.to_N y = (vb mod 16 * 16 + vc / 4)%N ->
    text64 [a; b; c; x3d] [x; y]
| text_three a b c d va vb vc vd x y z s l : digit64 a va -> digit64 b vb -> digit64 c vc -> digit64 d vd -> Byte.to_N x = (va * 4 + vb / 16)%N ->
    Byte.to_N y = (vb mod 16 * 16 + vc / 4)%N -> Byte.to_N z = (vc mod 4 * 64 + vd)%N -> text64 s l -> text64 (a :: b :: c :: d :: s) (x :: y :: z :: l).
Lemma digit64_value c v : b64_value c = Some v <-> digit64 c v.
Proof.
  split.
  - unfold digit64. intros E. destruct c; vm_compute in E; try discriminate E; injection E as <-; reflexivity.
  - unfold digit64. intros E. assert (Hv : (v < 64)%N). { assert (N.to_nat v < length letters64) by (apply nth_error_Some; congruence). cbn in H. lia. }
    rewrite <- (b64_char_value v Hv). f_equal. unfold b64_char. symmetry. apply nth_error_nth. exact E.
Qed.
Lemma digit64_lt c v : digit64 c v -> (v < 64)%N.
Proof. intros E. assert (N.to_nat v < length letters64) by (apply nth_error_Some; unfold digit64 in E; congruence). cbn in H. lia. Qed.
Lemma digit64_pad v : ~ digit64 x3d v.
Proof. intros E. apply digit64_value in E. vm_compute in E. discriminate E. Qed.
Lemma to_N_inj a b : Byte.to_N a = Byte.to_N b -> a = b.
Proof. intros E. pose proof (Byte.of_to_N a) as A. rewrite E, Byte.of_to_N in A. congruence. Qed.
Lemma byte_is x n : Byte.to_N x = (n mod 256)%N <-> byte_of_N n = x.
Proof.
  unfold byte_of_N. assert (L : (n mod 256 < 256)%N) by (apply N.mod_lt; discriminate). split.
  - intros E. rewrite <- E, Byte.of_to_N. reflexivity.
  - destruct (Byte.of_N (n mod 256)) as [y|] eqn:E; [intros <-; apply Byte.to_of_N; exact E|]. apply Byte.of_N_None_iff in E. lia.
Qed.
Lemma byte_1 va vb : (va < 64 -> vb < 64 -> (va * 4 + vb / 16) mod 256 = va * 4 + vb / 16)%N.
Proof. intros A B. apply N.mod_small. assert (vb / 16 < 4)%N by (apply N.div_lt_upper_bound; lia). lia. Qed.
Lemma byte_2 vb vc : (vb < 64 -> vc < 64 -> (vb * 16 + vc / 4) mod 256 = vb mod 16 * 16 + vc / 4)%N.
Proof. intros A B. euclid. Qed.
Lemma byte_3 vc vd : (vc < 64 -> vd < 64 -> (vc * 64 + vd) mod 256 = vc mod 4 * 64 + vd)%N.
Proof. intros A B. euclid. Qed.
Lemma text64_spec : forall k s l, length s <= k -> b64_decode s = Some l <-> text64 s l.
Proof.
  assert (B1 : forall a b va vb x, digit64 a va -> digit64 b vb -> Byte.to_N x = (va * 4 + vb / 16)%N <-> byte_of_N (va * 4 + vb / 16) = x).
  { intros a b va vb x A B. rewrite <- byte_is, byte_1 by (eapply digit64_lt; eassumption). reflexivity. }
  assert (B2 : forall a b va vb x, digit64 a va -> digit64 b vb -> Byte.to_N x = (va mod 16 * 16 + vb / 4)%N <-> byte_of_N (va * 16 + vb / 4) = x).
  { intros a b va vb x A B. rewrite <- byte_is, byte_2 by (eapply digit64_lt; eassumption). reflexivity. }
  assert (B3 : forall a b va vb x, digit64 a va -> digit64 b vb -> Byte.to_N x = (va mod 4 * 64 + vb)%N <-> byte_of_N (va * 64 + vb) = x).
  { intros a b va vb x A B. rewrite <- byte_is, byte_3 by (eapply digit64_lt; eassumption). reflexivity. }
  induction k as [|k IH]; intros s l Hk.
  { destruct s; [|cbn in Hk; lia]. cbn. split; [intros E; injection E as <-; constructor | intros E; inversion E; reflexivity]. }
  split.
  - destruct s as [|a [|b [|c [|d s]]]]; try discriminate; [intros E; injection E as <-; constructor|]. cbn [b64_decode].
    destruct (b64_value a) as [va|] eqn:Ea; [|discriminate]. destruct (b64_value b) as [vb|] eqn:Eb; [|discriminate]. apply digit64_value in Ea, Eb.
    destruct (Byte.eqb c b64_pad) eqn:Ec.
    + destruct (Byte.eqb d b64_pad) eqn:Ed; [|discriminate]. destruct s; [|discriminate]. intros E. injection E as <-.
      apply byte_eqb_eq in Ec, Ed. subst c d. eapply text_one; [exact Ea|exact Eb|]. apply (B1 _ _ _ _ _ Ea Eb). reflexivity.
    + destruct (b64_value c) as [vc|] eqn:Ec'; [|discriminate]. apply digit64_value in Ec'. destruct (Byte.eqb d b64_pad) eqn:Ed.
      * destruct s; [|discriminate]. intros E. injection E as <-. apply byte_eqb_eq in Ed. subst d.
        eapply text_two; [exact Ea|exact Eb|exact Ec'| |]; [apply (B1 _ _ _ _ _ Ea Eb)|apply (B2 _ _ _ _ _ Eb Ec')]; reflexivity.
      * destruct (b64_value d) as [vd|] eqn:Ed'; [|discriminate]. apply digit64_value in Ed'. destruct (b64_decode s) as [r|] eqn:Er; [|discriminate]. intros E. injection E as <-.
        eapply text_three; [exact Ea|exact Eb|exact Ec'|exact Ed'| | | |]; [apply (B1 _ _ _ _ _ Ea Eb)|apply (B2 _ _ _ _ _ Eb Ec')|apply (B3 _ _ _ _ _ Ec' Ed')|]; try reflexivity.
        apply IH; [cbn in Hk; lia|exact Er].
  - intros E. inversion E as [|a b va vb x Ea Eb X|a b c va vb vc x y Ea Eb Ec X Y|a b c d va vb vc vd x y z s' l' Ea Eb Ec Ed X Y Z Es]; subst; [reflexivity| | |]; cbn [b64_decode].
    + rewrite (proj2 (digit64_value _ _) Ea), (proj2 (digit64_value _ _) Eb). apply (B1 _ _ _ _ _ Ea Eb) in X. subst x. reflexivity.
    + rewrite (proj2 (digit64_value _ _) Ea), (proj2 (digit64_value _ _) Eb). assert (Nc : Byte.eqb c b64_pad = false) by (destruct (Byte.eqb c b64_pad) eqn:Q; [apply byte_eqb_eq in Q; subst c; destruct (digit64_pad _ Ec)|reflexivity]).
      rewrite Nc, (proj2 (digit64_value _ _) Ec). apply (B1 _ _ _ _ _ Ea Eb) in X. apply (B2 _ _ _ _ _ Eb Ec) in Y. subst. reflexivity.
    + rewrite (proj2 (digit64_value _ _) Ea), (proj2 (digit64_value _ _) Eb). assert (Np : forall q w, digit64 q w -> Byte.eqb q b64_pad = false) by (intros q w D; destruct (Byte.eqb q b64_pad) eqn:Q; [apply byte_eqb_eq in Q; subst q; destruct (digit64_pad _ D)|reflexivity]).
      rewrite (Np _ _ Ec), (Np _ _ Ed), (proj2 (digit64_value _ _) Ec), (proj2 (digit64_value _ _) Ed).
      apply IH in Es; [|cbn in Hk; lia]. rewrite Es. apply (B1 _ _ _ _ _ Ea Eb) in X. apply (B2 _ _ _ _ _ Eb Ec) in Y. apply (B3 _ _ _ _ _ Ec Ed) in Z. subst. reflexivity.
Qed.
