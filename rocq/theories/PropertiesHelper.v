(** Property theorems C101: helpers for numbers, slices and types, for the model in HelperModel.v. *)
From Coq Require Import Strings.String.
From Verif Require Import Base BaseLemmas UtilModel DbModel LoadModel PolicyModel PolicyProofs JsonText JsonTextProofs JsonModel JsonProofs JsonRead JsonEvery JsonGrammar JsonStable JsonUse
  PropertiesJson HelperModel HelperProofs.
Local Open Scope list_scope.
Local Notation length := List.length.
Local Notation b_ s := (list_byte_of_string s%string).

(** * C101 *)
(** Pow, for every integer type: the power, up to a multiple of 2^bits, in the range of the type; so the power itself if it is in the range. *)
Theorem C101_pow : forall (signed : bool) bits x n, (2 <= bits)%Z ->
  let least := (if signed then - 2 ^ (bits - 1) else 0)%Z in
  (least <= x < least + 2 ^ bits)%Z ->
  (least <= pow signed bits x n < least + 2 ^ bits)%Z /\ (exists k, pow signed bits x n = x ^ Z.of_N n + k * 2 ^ bits)%Z /\
  ((least <= x ^ Z.of_N n < least + 2 ^ bits)%Z -> pow signed bits x n = (x ^ Z.of_N n)%Z).
Proof.
  intros signed bits x n B least I. assert (B0 : (0 < bits)%Z) by lia. pose proof (half bits B0) as Hf.
  assert (R : forall z, (least <= z < least + 2 ^ bits)%Z <-> in_type signed bits z) by (intros z; unfold least, in_type; destruct signed; lia).
  assert (E : pow signed bits x n = keep signed bits (x ^ Z.of_N n)).
  { destruct n as [|p]; cbn [pow Z.of_N]; [|apply pow_positive_value; [exact B0|apply R; exact I]]. symmetry. rewrite Z.pow_0_r. apply keep_id; [exact B0|].
    assert (1 <= 2 ^ (bits - 1 - 1))%Z by (apply Z.lt_pred_le; apply Z.pow_pos_nonneg; lia). pose proof (half (bits - 1) ltac:(lia)). unfold in_type. destruct signed; lia. }
  rewrite E. split; [apply R; apply keep_in; exact B0|]. split; [|intros J; apply keep_id; [exact B0|apply R; exact J]].
  pose proof (keep_mod signed bits B0 (x ^ Z.of_N n)) as K. assert (M : (0 < 2 ^ bits)%Z) by (apply Z.pow_pos_nonneg; lia).
  exists (keep signed bits (x ^ Z.of_N n) / 2 ^ bits - x ^ Z.of_N n / 2 ^ bits)%Z.
  pose proof (Z.div_mod (keep signed bits (x ^ Z.of_N n)) (2 ^ bits) ltac:(lia)). pose proof (Z.div_mod (x ^ Z.of_N n) (2 ^ bits) ltac:(lia)). lia.
Qed.
Print Assumptions C101_pow.
(** ResizeSlice, for every memory and slice: the elements up to the new length are kept, the others have the value; the array is kept if it is large enough;
    nothing else in memory changes but the elements of the array between the old and the new length. A negative length panics. *)
Theorem C101_resize : forall (T : Type) (zero : T) more m s len fill, fits m s ->
  ((len < 0)%Z -> resize zero more m s len fill = Panic) /\
  ((0 <= len)%Z -> let n := Z.to_nat len in
    exists m' s', resize zero more m s len fill = Ok (m', s') /\ fits m' s' /\ p_len s' = n /\
      content_of m' s' = firstn n (content_of m s) ++ repeat fill (n - p_len s) /\
      (n <= p_cap s -> p_array s' = p_array s /\ p_first s' = p_first s /\ p_cap s' = p_cap s /\ length m' = length m) /\
      (p_cap s < n -> p_array s' = length m) /\
      (forall a j, a < length m -> (n <= p_cap s -> a <> p_array s \/ j < p_first s + p_len s \/ p_first s + n <= j) -> nth_error (array_of m' a) j = nth_error (array_of m a) j)).
Proof.
  intros T zero more m s len fill F. split.
  - intros L. unfold resize. destruct (Z.ltb_spec (Z.of_nat (p_len s)) len); [lia|]. destruct (Z.ltb_spec len 0); [reflexivity|lia].
  - intros L n. destruct (resize_spec zero more m s len fill F L) as (m' & s' & E & Ft & Ln & C & K1 & K2 & _ & _ & K3 & _). exists m', s'.
    split; [exact E|]. split; [exact Ft|]. split; [exact Ln|]. split; [exact C|]. split; [exact K1|]. split; [exact K2|exact K3].
Qed.
Print Assumptions C101_resize.
(** The channel numbers of the dechainers: for all numbers of certificates that arrive one after the other, and all choices of the runtime, the slice that is returned
    has one 0 for each certificate, and still has after all later calls, although they share memory. *)
Theorem C101_channels : forall calls, exists m l, channels calls [[]] nil_part = Ok (m, l) /\ Forall2 (fun c s => content_of m s = repeat 0 (fst c)) calls l.
Proof.
  intros calls. destruct (channels_spec calls [[]] nil_part) as (m & l & E & _ & _ & Z & G); [split; [cbn; lia|split; cbn; lia]|repeat constructor|].
  exists m, l. split; [exact E|]. clear E. induction G as [|c s calls l [F L] G IH]; constructor; [|exact IH]. rewrite <- L. apply zeros_content; assumption.
Qed.
Print Assumptions C101_channels.
(** SliceToTypedSlice: the elements of the type, converted, and the others, each in their order. *)
Theorem C101_split : forall (A T : Type) (conv : A -> option T) s,
  fst (typed_slice conv s) = flat_map (fun e => match conv e with Some t => [t] | None => [] end) s /\
  snd (typed_slice conv s) = filter (fun e => match conv e with Some _ => false | None => true end) s.
Proof. intros A T conv s. rewrite typed_spec. split; reflexivity. Qed.
Print Assumptions C101_split.
(** ToTypedSlice: exactly the slices all of whose elements are of the type are accepted, and the result has them in order; the rest are errors. *)
Theorem C101_typed : forall (A T : Type) (conv : A -> option T) slice,
  (forall l, to_typed_slice conv slice = Ok l <-> exists s, slice = Some s /\ Forall2 (fun e t => conv e = Some t) s l) /\ to_typed_slice conv slice <> Panic.
Proof. intros A T conv slice. split; [intros l; apply to_typed_iff|]. destruct slice as [s|]; cbn; [destruct (typed_slice conv s) as [t [|? ?]]; discriminate|discriminate]. Qed.
Print Assumptions C101_typed.
(** LoadPoliciesFromRaw accepts exactly the texts of slices of certificates, requests and revocations (or pointers to them), without changing them; all other texts
    are errors, and none panics. *)
Definition policy (o : object) : Prop := match o with OReq _ | OCert _ | ORev _ | OPtr (Some (OReq _ | OCert _ | ORev _)) => True | _ => False end.
Theorem C101_load : forall zs text, exists r, load_policies zs text = Some r /\ r <> Panic /\
  forall l, r = Ok l <-> from_text zs false text = Some (Ok (OSlice l)) /\ Forall policy l.
Proof.
  intros zs text. destruct (C72_every_text zs false text) as (r & E & P). unfold load_policies. rewrite E.
  assert (D : forall l l', Forall2 (fun e t => as_document e = Some t) l l' <-> l' = l /\ Forall policy l).
  { assert (X : forall e t, as_document e = Some t <-> t = e /\ policy e).
    { intros e t. split; [|intros [-> Q]; destruct e as [| | | | | | | | |[[| | | | | | | | |]|]]; try contradiction; reflexivity].
      destruct e as [| | | | | | | | |[[| | | | | | | | |]|]]; cbn; intros Q; try discriminate Q; injection Q as <-; split; try reflexivity; exact Logic.I. }
    induction l as [|e l IH]; intros l'.
    - split; [intros F; inversion F; split; constructor|intros [-> _]; constructor].
    - split; [intros F; inversion F as [|? t ? l0 Q1 Q2]; subst; apply X in Q1 as [-> Q1]; apply IH in Q2 as [-> Q2]; split; [reflexivity|constructor; assumption]|].
      intros [-> F]. inversion F; subst. constructor; [apply X; split; [reflexivity|assumption]|]. apply IH. split; [reflexivity|assumption]. }
  destruct r as [o| |]; [|exists Err; split; [reflexivity|]; split; [discriminate|]; intros l; split; [discriminate|intros [Q _]; discriminate Q]|contradiction].
  exists (to_typed_slice as_document (as_slice o)). split; [reflexivity|]. destruct (C101_typed object object as_document (as_slice o)) as [T1 T2]. split; [exact T2|].
  intros l. rewrite T1. split.
  - intros (s & S & F). destruct o; try discriminate S. injection S as ->. apply D in F as [-> F]. split; [reflexivity|exact F].
  - intros [Q F]. injection Q as ->. exists l. split; [reflexivity|]. apply D. split; [reflexivity|exact F].
Qed.
Print Assumptions C101_load.
(** So what ToJSON wrote for a slice of them is loaded as the same documents, in order. *)
Theorem C101_load_back : forall zs l text, Forall object_ok l -> Forall (object_plain zs) l -> Forall policy l -> to_text zs (OSlice l) = Ok text ->
  exists d, load_policies zs text = Some (Ok d) /\ Forall2 same_object l d.
Proof.
  intros zs l text O Pl Po E. destruct (C72_round_trip_partial zs false (OSlice l) text) as (o & R & S & _); [apply all_ok; exact O|apply all_plain; exact Pl|exact E|].
  destruct o as [| | | | | | | |d|]; try contradiction S. cbn [same_object] in S.
  assert (F : Forall2 same_object l d).
  { clear - S. revert d S. induction l as [|x l IH]; intros [|y d] S; try contradiction; constructor; [apply S|apply IH; apply S]. }
  exists d. split; [|exact F]. destruct (C101_load zs text) as (r & L & _ & I). rewrite L. f_equal. apply I. split; [exact R|].
  clear - F Po. induction F as [|x y l d S F IH]; constructor; inversion Po; subst; [|apply IH; assumption].
  destruct x as [| | | | | | | | |[[| | | | | | | | |]|]]; try contradiction; destruct y as [| | | | | | | | |[[| | | | | | | | |]|]]; try contradiction S; exact Logic.I.
Qed.
Print Assumptions C101_load_back.

Example C101_example :
  pow true 8 (-3) 5 = 13%Z /\ pow true 8 (-3) 4 = 81%Z /\ pow false 64 2 64 = 0%Z /\ pow true 64 10 18 = (10 ^ 18)%Z /\
  (let m := [[1; 2; 3; 4; 5]] in let s := mk_part 0 1 2 3 in fits m s /\ content_of m s = [2; 3] /\
    resize 0 4 m s 3 9 = Ok ([[1; 2; 3; 9; 5]], mk_part 0 1 3 3) /\ resize 0 1 m s 4 9 = Ok ([[1; 2; 3; 4; 5]; [2; 3; 9; 9; 0]], mk_part 1 0 4 5) /\
    resize 0 4 m s 1 9 = Ok (m, mk_part 0 1 1 3)) /\
  (exists m l, channels [(2, 1); (3, 0); (1, 0); (4, 4)] [[]] nil_part = Ok (m, l) /\ map p_array l = [1; 1; 1; 2]) /\
  (let conv n := if n <? 5 then Some (n * 2) else None in typed_slice conv [1; 7; 2; 9] = ([2; 4], [7; 9]) /\ to_typed_slice conv (Some [1; 2]) = Ok [2; 4] /\ to_typed_slice conv (Some [1; 7]) = Err) /\
  (let l := [OPtr (Some (OCert ex_pc)); OReq (ex_doc (b_ "b.com") (ex_at 1650000000 0))] in
   Forall object_ok l /\ Forall (object_plain ex_zones) l /\ Forall policy l /\ (exists text d, to_text ex_zones (OSlice l) = Ok text /\ load_policies ex_zones text = Some (Ok d) /\ length d = 2)).
Proof.
  split; [reflexivity|]. split; [reflexivity|]. split; [vm_compute; reflexivity|]. split; [vm_compute; reflexivity|].
  split; [cbv zeta; split; [split; [cbn; lia|split; cbn; lia]|]; repeat split|].
  split; [do 2 eexists; split; [reflexivity|reflexivity]|]. split; [repeat split|]. cbv zeta.
  destruct C72_example as (_ & _ & A & B & _).
  assert (O : Forall object_ok [OPtr (Some (OCert ex_pc)); OReq (ex_doc (b_ "b.com") (ex_at 1650000000 0))]) by (constructor; [exact A|constructor; [repeat split|constructor]]).
  assert (Pl : Forall (object_plain ex_zones) [OPtr (Some (OCert ex_pc)); OReq (ex_doc (b_ "b.com") (ex_at 1650000000 0))]).
  { constructor; [exact B|constructor; [|constructor]]. repeat split; try (repeat constructor); apply ascii_valid; reflexivity. }
  assert (Po : Forall policy [OPtr (Some (OCert ex_pc)); OReq (ex_doc (b_ "b.com") (ex_at 1650000000 0))]) by (repeat constructor).
  split; [exact O|]. split; [exact Pl|]. split; [exact Po|].
  destruct (to_text ex_zones (OSlice [OPtr (Some (OCert ex_pc)); OReq (ex_doc (b_ "b.com") (ex_at 1650000000 0))])) as [text| |] eqn:E; [|vm_compute in E; discriminate E|vm_compute in E; discriminate E].
  exists text. destruct (C101_load_back ex_zones _ text O Pl Po E) as (d & L & F). exists d. split; [reflexivity|]. split; [exact L|]. clear - F. inversion F as [|? ? ? ? _ F1]; subst. inversion F1 as [|? ? ? ? _ F2]; subst. inversion F2. reflexivity.
Qed.

(** ** What is false *)
(** Growing a slice inside its array changes another slice of that array. *)
Theorem C101_alias_refuted : exists (m : memory nat) s t m' s', fits m s /\ fits m t /\ resize 0 0 m s 3 9 = Ok (m', s') /\ content_of m t = [2; 3] /\ content_of m' t = [9; 9].
Proof.
  exists [[1; 2; 3; 4]], (mk_part 0 0 1 4), (mk_part 0 1 2 3), [[1; 9; 9; 4]], (mk_part 0 0 3 4). split; [split; [cbn; lia|split; cbn; lia]|]. split; [split; [cbn; lia|split; cbn; lia]|]. repeat split.
Qed.
Print Assumptions C101_alias_refuted.
(** The comment of LoadPoliciesFromRaw names the timestamps of logs and the requests for revocations among the documents it can load: a slice with one of
    them, written by ToJSON, is read by FromJSON, and refused. *)
Theorem C101_timestamp_refuted : forall o, In o [OSpct (mk_ts None 3 None (ex_at 0 0) None); OSpcrt (mk_ts None 3 None (ex_at 0 0) None); ORevReq (Some [x01])] ->
  exists text, to_text ex_zones (OSlice [OPtr (Some (OCert ex_pc)); OPtr (Some o)]) = Ok text /\ (exists l, from_text ex_zones false text = Some (Ok (OSlice l)) /\ length l = 2) /\
    load_policies ex_zones text = Some Err.
Proof.
  intros o I. assert (O : object_ok (OSlice [OPtr (Some (OCert ex_pc)); OPtr (Some o)])).
  { destruct C72_example as (_ & _ & A & _). cbn [object_ok]. split; [exact A|]. destruct I as [<-|[<-|[<-|[]]]]; repeat split. }
  assert (W : exists text, to_text ex_zones (OSlice [OPtr (Some (OCert ex_pc)); OPtr (Some o)]) = Ok text).
  { destruct I as [<-|[<-|[<-|[]]]]; eexists; vm_compute; reflexivity. }
  destruct W as (text & W). exists text. split; [exact W|]. pose proof (C72_what_is_read ex_zones false _ text O W) as R. cbn [normal map] in R.
  split; [eexists; split; [exact R|reflexivity]|]. unfold load_policies. rewrite R. destruct I as [<-|[<-|[<-|[]]]]; reflexivity.
Qed.
Print Assumptions C101_timestamp_refuted.
