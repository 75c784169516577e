(** What a linear pipeline must deliver, stated without the steps of the stages. *)
From Verif Require Import Base PipeModel.

Section Spec.
  Context {D : Type}.
  (** The outputs of a streaming function: up to and including the first call that does not say StreamOutput. *)
  Fixpoint stream_outs (l : list (list D * ret)) : list D :=
    match l with
    | [] => []
    | (o, r) :: l' => o ++ (if is_stream r then stream_outs l' else [])
    end.
  (** The outputs for the last input of [h]. *)
  Definition outs_of (b : @behaviour D) (h : list D) : list D :=
    fst (proc b h) ++ (if is_stream (snd (proc b h)) then stream_outs (stream b h) else []).
  Fixpoint images_from (b : @behaviour D) (pre h : list D) : list D :=
    match h with
    | [] => []
    | x :: h' => outs_of b (pre ++ [x]) ++ images_from b (pre ++ [x]) h'
    end.
  (** The outputs for the inputs [h], in order. *)
  Definition images (b : @behaviour D) (h : list D) : list D := images_from b [] h.
  (** And those at the end of the input. *)
  Definition last_outs (b : @behaviour D) (h : list D) : list D := fst (nomore b h).

  (** The stage sends its outputs in order: because it is configured so, or because it never has more than one at a time. *)
  Definition orderly (b : @behaviour D) : Prop :=
    how b = MSeq \/
    forall h, length (fst (proc b h)) <= 1 /\ length (fst (nomore b h)) <= 1 /\ forall o, In o (stream b h) -> length (fst o) <= 1.

  Definition fine (r : ret) : Prop := r = ROk \/ r = RStream.
  (** The source produces on [n] calls and says NoMoreData on the next one; nobody fails. *)
  Definition source_items (tick : D) (b : @behaviour D) (n : nat) : Prop :=
    (forall m, 1 <= m <= n -> fine (snd (proc b (repeat tick m)))) /\ snd (proc b (repeat tick (S n))) = RNoMore.
  Definition never_fails (b : @behaviour D) : Prop :=
    (forall h, fine (snd (proc b h))) /\ forall h e, snd (nomore b h) <> RErr e.

  (** What stage [k] must have received at the end. *)
  Fixpoint expected (tick : D) (bs : nat -> @behaviour D) (n k : nat) : list D :=
    match k with
    | O => repeat tick (S n)
    | S O => images (bs 0) (repeat tick (S n))
    | S j => images (bs j) (expected tick bs n j) ++ last_outs (bs j) (expected tick bs n j)
    end.
End Spec.

Section Errors.
  Context {D : Type}.
  (** The processing function of the stage has returned the error [e] (or onNoMoreData has). *)
  Definition raised (b : @behaviour D) (s : @stage D) (e : bytes) : Prop :=
    (exists h t, rcvd s = h ++ t /\ h <> [] /\ snd (proc b h) = RErr e) \/
    (ended s = true /\ snd (nomore b (rcvd s)) = RErr e).
  (** The stage stops sending at the first error it hears: because it is configured so, or because it never has more than one
      output at a time. *)
  Definition stops_at_error (b : @behaviour D) : Prop :=
    how b = MCyc \/
    forall h, length (fst (proc b h)) <= 1 /\ length (fst (nomore b h)) <= 1 /\ forall o, In o (stream b h) -> length (fst o) <= 1.
End Errors.

Section Same.
  Context {D : Type}.
  (** The same stage, except that its streaming function may return an error where the other one returns NoMoreData or nil. *)
  Definition same_but_stream_error (b b' : @behaviour D) : Prop :=
    how b' = how b /\ forall h, proc b' h = proc b h /\ nomore b' h = nomore b h /\
      map (fun o => (fst o, is_stream (snd o))) (stream b' h) = map (fun o => (fst o, is_stream (snd o))) (stream b h).
  (** Items from a slice, functions, a sink that takes everything. *)
  Definition map_stage (f : D -> D) : @behaviour D :=
    {| proc := fun h => (match rev h with x :: _ => [f x] | [] => [] end, ROk); nomore := fun _ => ([], ROk); stream := fun _ => []; how := MConc |}.
  Definition chain (items : list D) (fs : list (D -> D)) (k : nat) : @behaviour D :=
    match k with
    | O => slice_source items (fun _ => ROk)
    | S j => match nth_error fs j with Some f => map_stage f | None => fun_sink (fun _ => ROk) end
    end.
End Same.
