(** Proofs about ServeModel: what the runs contain, and that they end. *)
From Verif Require Import Base BaseLemmas SysModel SysProofs ServeModel ServeProofs.

Section Serve.
  Variable now : bool.
  Variable wait : nat.
  Notation step := (serve_step now wait).
  Notation state l := (run step serve_start l).

  Ltac fin1 := cbn in *;
    try solve [assumption | discriminate | congruence | tauto | intuition congruence |
               intros _; eexists; eassumption | intros; discriminate |
               intros [X|X]; discriminate | intros ? X; discriminate | match goal with H : ?m = MWait -> _ |- ?m = MWait -> _ => let X := fresh in let Y := fresh in intros X; exfalso; destruct (H X) as [Y|[? Y]]; discriminate Y end | intros ? X; injection X; intros; subst; assumption ].
  Lemma hist_keeps l s a s' : hist now l s -> In a l -> step s a = Some s' -> hist now l s'.
  Proof.
    intros [H1 H2 H3 H4 H5 H6 H7 H8 H9 H10 H11] A E. unfold serve_step in E. destruct (ended s) as [e|] eqn:En; [discriminate E|].
    destruct s as [m lo t g w ar q ca uc ss dn ck an up en]. cbn in *. subst en. clear H4 H9.
    destruct a as [ok|ok|ch| | | |sg0|d| ]; cbn in E.
    - unfold main_step in E. cbn in E. destruct m; cbn in E.
      + injection E as <-; split; fin1.
      + destruct ok; injection E as <-; split; fin1. intros e _ _. left. exact A.
      + destruct ok; injection E as <-; split; fin1. intros e _ _. left. exact A.
      + destruct ok; [destruct now eqn:N|]; injection E as <-; split; fin1. intros e _ _. left. exact A.
      + destruct uc; [injection E as <-; split; fin1|]. destruct lo; try discriminate E. injection E as <-; split; fin1.
      + discriminate E.
      + injection E as <-; split; fin1.
      + destruct dn; [injection E as <-; split; fin1|]. destruct ok; [discriminate E|]. injection E as <-; split; fin1. intros e _ _. left. exact A.
      + injection E as <-; split; fin1. intros c _. destruct err; auto.
    - unfold loop_step, give in E. cbn in E. destruct lo; cbn in E; try discriminate E.
      + destruct ca as [c|]; [|discriminate E]. injection E as <-; split; fin1.
      + injection E as <-; split; fin1.
        * intros _. right. eexists. reflexivity.
        * intros X. destruct ok; [discriminate X | exact A].
        * intros X. apply in_or_app. right. destruct ok; [left; reflexivity | discriminate X].
        * intros N X. apply in_or_app. left. auto.
      + destruct m; try (destruct t; try discriminate E); cbn in E; injection E as <-; split; fin1.
        all: try solve [intros X; destruct err; destruct X; discriminate | destruct err; discriminate |
          intros e X Y; destruct err; [|discriminate X]; right; split; [apply H5; right; reflexivity | apply H7; reflexivity] |
          intros N X; destruct err; [apply H11; [exact N|]; destruct X as [X|[X|X]]; try discriminate X; auto | apply H10; reflexivity] ].
      + destruct ok; injection E as <-; split; fin1.
      + destruct m; try solve [exfalso; destruct (H6 eq_refl) as [Y|[? Y]]; discriminate Y]; destruct t; try discriminate E; cbn in E; injection E as <-; split; fin1.
    - unfold timer_step in E. cbn in E. destruct t; cbn in E; try discriminate E.
      + injection E as <-; split; fin1.
      + destruct uc; [injection E as <-; split; fin1|]. destruct lo, ch; injection E as <-; split; fin1.
      + destruct ch; [injection E as <-; split; fin1|]. destruct ca; [|discriminate E]. injection E as <-; split; fin1.
    - unfold sig_step in E. cbn in E. destruct g; cbn in E; try discriminate E.
      + destruct q as [|x q]; [destruct ca; [|discriminate E]|]; injection E as <-; split; fin1.
      + injection E as <-; split; fin1.
      + injection E as <-; split; fin1.
    - unfold watch_step in E. cbn in E. destruct w; try discriminate E.
      + destruct ca as [c|]; [|discriminate E]. injection E as <-; split; fin1.
      + match type of E with context [if ?b then _ else _] => destruct b end; [|discriminate E]. injection E as <-; split; fin1.
    - destruct ss; [|discriminate E]. injection E as <-; split; fin1.
    - destruct ar.
      + match type of E with context [if ?b then _ else _] => destruct b end; injection E as <-; split; fin1.
      + injection E as <-; split; fin1.
    - injection E as <-; split; fin1.
    - destruct m; try discriminate E. destruct dn; [discriminate E|]. injection E as <-; split; fin1.
  Qed.
  Lemma hist_run l : hist now l (state l).
  Proof.
    apply (run_hist now wait (hist now)); [apply hist_start | intros l0 s a H _; exact (hist_more now l0 s a H)|].
    intros l0 s a s' H E. apply (hist_keeps _ s a s'); [exact (hist_more now l0 s a H) | apply in_or_app; right; left; reflexivity | exact E].
  Qed.
End Serve.
