(** Properties of the helper packages: C54-C58, C60-C62. *)
From Coq Require Import Strings.String Permutation Sorted ZArith List.
From Verif Require Import Base UtilModel UtilSort UtilSlices UtilMisc UtilDuration UtilIds.

(** ** C54. Sets of ids. A slice is (array, length, capacity) in a heap; the heap theorem covers aliasing. *)
Theorem C54_glue_keeps_the_callers_arrays h s h' b : in_heap h s -> sort_ids_and_glue h s = (h', b) -> firstn (length h) h' = h.
Proof. intros Hi Hq. exact (proj1 (glue_ok h s h' b Hi Hq)). Qed.
Theorem C54_glue_order_independent h1 s1 h2 s2 : in_heap h1 s1 -> in_heap h2 s2 -> Permutation (sl_get h1 s1) (sl_get h2 s2) ->
  snd (sort_ids_and_glue h1 s1) = snd (sort_ids_and_glue h2 s2).
Proof.
  intros H1 H2 Hp. destruct (sort_ids_and_glue h1 s1) as [h1' b1] eqn:Q1. destruct (sort_ids_and_glue h2 s2) as [h2' b2] eqn:Q2.
  apply glue_ok in Q1 as [_ ->]; [|exact H1]. apply glue_ok in Q2 as [_ ->]; [|exact H2]. cbn [snd].
  rewrite (sort_ids_perm _ _ Hp). reflexivity.
Qed.
Theorem C54_hash_order_independent H h1 s1 h2 s2 : in_heap h1 s1 -> in_heap h2 s2 -> Permutation (sl_get h1 s1) (sl_get h2 s2) ->
  snd (sort_ids_and_hash H h1 s1) = snd (sort_ids_and_hash H h2 s2).
Proof.
  intros H1 H2 Hp. pose proof (C54_glue_order_independent h1 s1 h2 s2 H1 H2 Hp) as Hg. unfold sort_ids_and_hash.
  destruct (sl_get h1 s1) as [|x l] eqn:E1; destruct (sl_get h2 s2) as [|y l'] eqn:E2.
  - reflexivity.
  - apply Permutation_nil in Hp. discriminate.
  - symmetry in Hp. apply Permutation_nil in Hp. discriminate.
  - destruct (sort_ids_and_glue h1 s1), (sort_ids_and_glue h2 s2). cbn [snd] in *. congruence.
Qed.
Theorem C54_split_gives_sorted_ids h s : in_heap h s -> Forall (fun i : bytes => length i = IDSize) (sl_get h s) ->
  Permutation (bytes_to_ids (snd (sort_ids_and_glue h s))) (sl_get h s) /\
  StronglySorted (fun x y => bcmp x y <> Gt) (bytes_to_ids (snd (sort_ids_and_glue h s))).
Proof.
  intros Hi Hf. destruct (sort_ids_and_glue h s) as [h' b] eqn:Q. apply glue_ok in Q as [_ ->]; [|exact Hi]. cbn [snd].
  change (concat (sort_ids (sl_get h s))) with (ids_to_bytes (sort_ids (sl_get h s))). rewrite ids_round_trip.
  - split; [apply sort_perm | apply sort_sorted].
  - rewrite Forall_forall in *. intros x Hx. apply Hf. apply (Permutation_in _ (sort_perm _) Hx).
Qed.
Theorem C54_split_then_glue b : length b mod IDSize = 0 -> ids_to_bytes (bytes_to_ids b) = b.
Proof. exact (bytes_round_trip b). Qed.
Theorem C54_glue_then_split ids : Forall (fun i : bytes => length i = IDSize) ids -> bytes_to_ids (ids_to_bytes ids) = ids.
Proof. exact (ids_round_trip ids). Qed.
Example C54_example :
  let i1 := repeat x01 32 in let i2 := repeat x02 32 in
  let h := [[i2; i1; i2]; [i1]] in
  in_heap h (mk_slice 0 3 3) /\ Forall (fun i : bytes => length i = IDSize) (sl_get h (mk_slice 0 3 3)) /\
  snd (sort_ids_and_glue h (mk_slice 0 3 3)) = i1 ++ i2 ++ i2 /\
  Permutation (sl_get h (mk_slice 0 2 3)) (sl_get [[i1; i2]] (mk_slice 0 2 2)).
Proof.
  cbv zeta. split; [split; cbn; lia|]. split; [repeat constructor|]. split; [vm_compute; reflexivity|]. cbn. apply perm_swap.
Qed.
Print Assumptions C54_glue_keeps_the_callers_arrays.
Print Assumptions C54_glue_order_independent.
Print Assumptions C54_hash_order_independent.
Print Assumptions C54_split_gives_sorted_ids.
Print Assumptions C54_split_then_glue.
Print Assumptions C54_glue_then_split.

(** ** C55. Unfolding chains. [rows_of H true (leaf, chain)] are the leaf row and, per chain certificate, one row with its
    successor as parent; the code returns them all, but a parent shared by two chains twice (see the refutation). *)
Theorem C55_unfold_certs_partial H l :
  Permutation (unfold_certs H l) (flat_map (rows_of H true) l) /\
  map (fun r => fst (fst (fst r))) (firstn (length l) (unfold_certs H l)) = map fst l.
Proof. split; [apply unfold_certs_perm | apply unfold_certs_leaves]. Qed.
Theorem C55_unfold_cert_partial leaf id chain rows : unfold_cert leaf id chain = Ok rows ->
  exists pid rest, rows = (leaf, id, Some pid, Some (cert_names leaf)) :: rest /\
  (exists c tl, chain = (c, pid) :: tl) /\
  (forall k r, nth_error rest k = Some r -> exists c cid, nth_error chain k = Some (Some c, cid) /\
      r = (c, cid, match nth_error chain (S k) with None => None | Some p => Some (snd p) end, None)) /\
  (nth_error chain (length rest) = None \/ exists i, nth_error chain (length rest) = Some (None, i)).
Proof.
  intros Hq. destruct (unfold_cert_ok _ _ _ _ Hq) as (pid & rest & Hr & Hc & Hk).
  pose proof (unfold_cert_stops _ _ _ _ Hq) as Hs. rewrite Hr in Hs. cbn [length] in Hs. rewrite Nat.sub_succ, Nat.sub_0_r in Hs.
  exists pid, rest. auto.
Qed.
Definition ex_leaf : cert := mk_cert [x01] [[x61]].
Definition ex_leaf2 : cert := mk_cert [x02] [[x62]].
Definition ex_ca : cert := mk_cert [x03] [].
Definition ex_root : cert := mk_cert [x04] [].
Example C55_example :
  unfold_certs (fun x => x) [(ex_leaf, [ex_ca; ex_root]); (ex_leaf2, [])] =
  [(ex_leaf, [x01], Some [x03], Some [[x61]]); (ex_leaf2, [x02], None, Some [[x62]]);
   (ex_ca, [x03], Some [x04], None); (ex_root, [x04], None, None)] /\
  unfold_cert ex_leaf [x01] [(Some ex_ca, [x03]); (None, [x04])] =
  Ok [(ex_leaf, [x01], Some [x03], Some [[x61]]); (ex_ca, [x03], Some [x04], None)].
Proof. split; reflexivity. Qed.
Print Assumptions C55_unfold_certs_partial.
Print Assumptions C55_unfold_cert_partial.
(** A parent shared by two chains is returned twice. *)
Theorem C55_each_once_refuted : exists l, NoDup (map fst l) /\ ~ NoDup (unfold_certs (fun x => x) l).
Proof.
  exists [(ex_leaf, [ex_root]); (ex_leaf2, [ex_root])]. split.
  - repeat constructor; cbn; intuition discriminate.
  - intros Hn. cbn in Hn. repeat match goal with Hn : NoDup (_ :: _) |- _ => inversion Hn; clear Hn; subst end.
    match goal with Hi : ~ In _ _ |- _ => apply Hi; left; reflexivity end.
Qed.
(** UnfoldCert on a self-signed certificate without chain panics. *)
Theorem C55_empty_chain_panics_refuted : exists leaf id, unfold_cert leaf id [] = Panic.
Proof. exists ex_root, [x04]. reflexivity. Qed.
Print Assumptions C55_each_once_refuted.
Print Assumptions C55_empty_chain_panics_refuted.

(** ** C56. [kept d idx l] lists the elements of [l] whose position is not in [idx]. *)
Theorem C56_remove_one {A} (d : A) l i : i < length l -> Permutation (remove_elem d l i) (firstn i l ++ skipn (S i) l).
Proof. exact (remove_elem_ok d l i). Qed.
Theorem C56_remove_many {A} (d : A) rnd idx l : NoDup idx -> (forall p, In p idx -> p < length l) ->
  exists r, remove_elements_from_slice d rnd idx l = Some r /\ Permutation r (kept d idx l).
Proof.
  intros Hn Hr. unfold remove_elements_from_slice.
  destruct (qsort_ok 0 Nat.ltb) with (rnd := rnd) (fuel := length idx) (cnt := 0) (a := idx) as (s & cnt & -> & Hp & Hs).
  - intros x. apply Nat.ltb_irrefl.
  - intros x y z H1 H2. apply Nat.ltb_lt in H1, H2. apply Nat.ltb_lt. lia.
  - intros x y. rewrite !Nat.ltb_lt. lia.
  - reflexivity.
  - exists (remove_elements d s l). split; [reflexivity|]. apply remove_elements_ok; auto.
    assert (Hle : forall s, StronglySorted (ord_le Nat.ltb) s -> StronglySorted Nat.le s).
    { clear. induction s as [|x s IH]; intros Hs; [constructor|]. inversion Hs as [|? ? Hs' Hf]; subst. constructor; [auto|].
      eapply Forall_impl; [|exact Hf]. intros y Hy. apply Nat.ltb_ge in Hy. exact Hy. }
    apply Hle. exact Hs.
Qed.
Example C56_example :
  NoDup [3; 0; 1] /\ (forall p, In p [3; 0; 1] -> p < length [10; 11; 12; 13; 14]) /\
  kept 0 [3; 0; 1] [10; 11; 12; 13; 14] = [12; 14] /\
  remove_elements_from_slice 0 (fun n => 7 * n + 1) [3; 0; 1] [10; 11; 12; 13; 14] = Some [14; 12] /\
  remove_elem 0 [10; 11; 12] 0 = [12; 11].
Proof. repeat split; try reflexivity; [repeat constructor; cbn; intuition discriminate | cbn; intuition lia]. Qed.
Print Assumptions C56_remove_one.
Print Assumptions C56_remove_many.

(** ** C57. Durations are int64 nanoseconds. *)
Theorem C57_round_trip d : in_int64 d -> parse_duration (fmt_duration d) = Some d.
Proof. exact (duration_round_trip d). Qed.
(** The value of each unit in nanoseconds, and no other unit. *)
Definition second : Z := 1000000000%Z.
Definition unit_table : list (string * Z) :=
  [("ns", 1); ("us", 1000); ("ms", 1000000); ("s", second); ("m", 60 * second); ("h", 60 * 60 * second); ("d", 24 * 60 * 60 * second);
   ("w", 7 * 24 * 60 * 60 * second); ("y", 365 * 24 * 60 * 60 * second)]%Z%string.
Theorem C57_units z u ns : In (u, ns) unit_table -> in_int64 z -> in_int64 (z * ns) -> parse_duration (dec_Z z ++ list_byte_of_string u) = Some (z * ns)%Z.
Proof.
  intros Hu Hz Hm. assert (E : exists n, list_byte_of_string u = unit_bytes n /\ ns = unit_ns n).
  { repeat (destruct Hu as [Hu|Hu]; [injection Hu as <- <-; first [exists Uns; split; reflexivity | exists Uus; split; reflexivity | exists Ums; split; reflexivity | exists Us; split; reflexivity
      | exists Um; split; reflexivity | exists Uh; split; reflexivity | exists Ud; split; reflexivity | exists Uw; split; reflexivity | exists Uy; split; reflexivity]|]). destruct Hu. }
  destruct E as (n & -> & ->). apply parse_duration_value; assumption.
Qed.
Example C57_units_example : In ("w"%string, 604800000000000%Z) unit_table /\ parse_duration [x2d; x32; x77] = Some (-1209600000000000)%Z.
Proof. split; [unfold unit_table, second; cbn; tauto | reflexivity]. Qed.
(** Missing for the full claim: a run of digits and dashes is accepted even if it is no number, or too large. *)
Theorem C57_malformed_partial s d : parse_duration s = Some d -> exists p u,
  s = p ++ u /\ p <> [] /\ (forall c, In c p -> is_digit c = true \/ c = x2d) /\
  (u = [xc2; xb5; x73] \/ exists n, u = unit_bytes n).
Proof. exact (parse_duration_shape s d). Qed.
Example C57_example :
  in_int64 (-5400000000000)%Z /\ fmt_duration (-5400000000000)%Z = [x2d; x39; x30; x6d] /\
  parse_duration [x2d; x39; x30; x6d] = Some (-5400000000000)%Z /\ parse_duration [x31; x30] = None.
Proof. repeat split; try reflexivity; unfold in_int64; lia. Qed.
Print Assumptions C57_round_trip.
Print Assumptions C57_units.
Print Assumptions C57_malformed_partial.
(** "--5s" is accepted as 0, "300y" overflows to a negative duration. *)
Theorem C57_malformed_refuted :
  (exists s, parse_duration s = Some 0%Z /\ s = [x2d; x2d; x35; x73]) /\
  (exists s d, s = [x33; x30; x30; x79] /\ parse_duration s = Some d /\ (d < 0)%Z).
Proof. split; [exists [x2d; x2d; x35; x73] | exists [x33; x30; x30; x79], (-8985944073709551616)%Z]; repeat split; try reflexivity; vm_compute; reflexivity. Qed.
Print Assumptions C57_malformed_refuted.

(** ** C58. [off] is the offset of the local time zone. Missing: zones other than UTC; the result may equal now. *)
Theorem C58_partial t0 tod now : (0 <= tod < day_ns)%Z -> (t0 < now)%Z ->
  let r := next_time_of_day t0 tod now 0 in (now <= r < now + day_ns)%Z /\ (r mod day_ns = tod)%Z.
Proof. exact (next_tod_ok t0 tod now). Qed.
Theorem C58_any_zone_partial t0 tod now off : (0 <= tod < day_ns)%Z -> (t0 < now)%Z -> (- day_ns < off < day_ns)%Z ->
  let r := next_time_of_day t0 tod now off in (now - Z.abs off <= r < now + 2 * day_ns)%Z /\ (r mod day_ns = tod)%Z.
Proof. exact (next_tod_offset t0 tod now off). Qed.
Definition hour : Z := 3600000000000%Z.
Example C58_example : (0 <= 3 * hour < day_ns)%Z /\ (0 < 100 * hour)%Z /\
  next_time_of_day 0 (3 * hour) (100 * hour) 0 = (123 * hour)%Z.
Proof. repeat split; try reflexivity; vm_compute; discriminate. Qed.
Print Assumptions C58_partial.
Print Assumptions C58_any_zone_partial.
(** Local midnight passed already but UTC midnight not (zone +2h, 23:00 UTC on day 4): the instant returned is 25 hours ahead.
    In the zone -2h at 01:00 UTC the local day is the previous one. And the result may be now itself. *)
Theorem C58_within_a_day_refuted : exists tod now off, (0 <= tod < day_ns)%Z /\ (0 < now)%Z /\ (off = 2 * hour)%Z /\
  (now + day_ns < next_time_of_day 0 tod now off)%Z.
Proof. exists (23 * hour + hour / 2)%Z, (119 * hour)%Z, (2 * hour)%Z. vm_compute. repeat split; discriminate. Qed.
Theorem C58_strictly_after_refuted : exists tod now, (0 <= tod < day_ns)%Z /\ (0 < now)%Z /\ next_time_of_day 0 tod now 0 = now.
Proof. exists (3 * hour)%Z, (99 * hour)%Z. vm_compute. repeat split; discriminate. Qed.
Theorem C58_before_now_refuted : exists tod now off, (0 <= tod < day_ns)%Z /\ (0 < now)%Z /\
  (next_time_of_day 0 tod now off < now)%Z.
Proof. exists hour, (98 * hour)%Z, (- 3 * hour)%Z. vm_compute. repeat split; discriminate. Qed.
Print Assumptions C58_within_a_day_refuted.
Print Assumptions C58_strictly_after_refuted.
Print Assumptions C58_before_now_refuted.

(** ** C60. [messages] lists the messages of all non-nil errors, also inside coalesced ones, in order. *)
Theorem C60_nil errs : errors_coalesce errs = None <-> messages errs = [].
Proof. exact (coalesce_none errs). Qed.
Theorem C60_each_once errs l : errors_coalesce errs = Some l -> NoDup l /\ (forall m, In m l <-> In m (messages errs)).
Proof. exact (coalesce_some errs l). Qed.
Theorem C60_order errs more l l' : errors_coalesce errs = Some l -> errors_coalesce (errs ++ more) = Some l' ->
  exists suf, l' = l ++ suf.
Proof. exact (coalesce_prefix errs more l l'). Qed.
Example C60_example :
  let e := [None; Some (Plain [x61]); Some (Coalesced [Some (Plain [x62]); None; Some (Coalesced [Some (Plain [x61]); Some (Plain [x63])])])] in
  errors_coalesce e = Some [[x61]; [x62]; [x63]] /\ messages e = [[x61]; [x62]; [x61]; [x63]] /\
  errors_coalesce [None; Some (Coalesced [None])] = None.
Proof. repeat split; reflexivity. Qed.
Print Assumptions C60_nil.
Print Assumptions C60_each_once.
Print Assumptions C60_order.

(** ** C61. [rows cols]: the tuples of elements at one index. [val] is the identity being deduplicated. *)
Theorem C61_dedup {A T} (d : A) (eqb : T -> T -> bool) (val : list A -> T) cols n :
  (forall x y, eqb x y = true <-> x = y) -> cols <> [] -> Forall (fun c => length c = n) cols ->
  exists n', let r := make_unique d eqb val cols in
  length r = length cols /\ Forall (fun c => length c = n') r /\ NoDup (map val (rows d r)) /\ incl (rows d r) (rows d cols) /\
  forall x, In x (rows d cols) -> In (val x) (map val (rows d r)).
Proof. intros He Hc Hr. exact (make_unique_ok d eqb He val cols n Hc Hr). Qed.
Example C61_example :
  let cols := [[5; 6; 5; 7; 6]; [1; 2; 3; 4; 5]] in
  Forall (fun c => length c = 5) cols /\
  make_unique 0 Nat.eqb (fun r => hd 0 r) cols = [[5; 6; 7]; [1; 2; 4]].
Proof. split; [repeat constructor | reflexivity]. Qed.
Print Assumptions C61_dedup.

(** ** C62. [rnd] is the stream of random numbers; the fuel is the length of the slice, so the recursion always ends. *)
Theorem C62_qsort {A} (d : A) (ltb : A -> A -> bool) rnd cnt a :
  (forall x, ltb x x = false) -> (forall x y z, ltb x y = true -> ltb y z = true -> ltb x z = true) ->
  (forall x y, ltb x y = true \/ x = y \/ ltb y x = true) ->
  exists a' cnt', qsort d ltb rnd (length a) cnt a = Some (a', cnt') /\ Permutation a' a /\
  StronglySorted (fun x y => ltb y x = false) a'.
Proof. intros H1 H2 H3. exact (qsort_ok d ltb H1 H2 H3 rnd (length a) cnt a (le_n _)). Qed.
Example C62_example : exists c, qsort 0 Nat.ltb (fun n => 3 * n) 7 0 [3; 1; 3; 2; 0; 3; 1] = Some ([0; 1; 1; 2; 3; 3; 3], c).
Proof. eexists. vm_compute. reflexivity. Qed.
Print Assumptions C62_qsort.
