(** C44: generic binary search (adv_utils.hpp). *)
From Coq Require Import NArith ZArith List Lia Bool.
From Coq Require Import ZifyBool ZifyNat ZifyN.
From Verif.Common Require Import Res.
Import ListNotations.
Open Scope Z_scope.
Open Scope res_scope.

(** ** Model *)

(** An integral type: signedness and width in bits. *)
Record ity := { i_signed : bool; i_bits : Z }.
Definition i_min (t : ity) : Z := if i_signed t then - 2 ^ (i_bits t - 1) else 0.
Definition i_max (t : ity) : Z := if i_signed t then 2 ^ (i_bits t - 1) - 1 else 2 ^ i_bits t - 1.
Definition in_ty (t : ity) (x : Z) : Prop := i_min t <= x <= i_max t.

(** The type in which [r - l] is computed: types narrower than int are promoted to int. *)
Definition promoted (t : ity) : ity :=
  if i_bits t <? 32 then {| i_signed := true; i_bits := 32 |} else t.
(** Built-in subtraction: signed overflow is UB, unsigned arithmetic wraps. *)
Definition sub_ty (t : ity) (a b : Z) : res Z :=
  let p := promoted t in
  if i_signed p then
    if (i_min p <=? a - b) && (a - b <=? i_max p) then Ok (a - b) else UB
  else Ok ((a - b) mod 2 ^ i_bits p).
(** std::midpoint on integers (library, by its contract): half the sum, rounded towards the first. *)
Definition midpoint (l r : Z) : Z := if l <=? r then l + (r - l) / 2 else l - (l - r) / 2.

(* adv_utils.hpp:77-84 middle<integral> *)
Definition middle_int (t : ity) (l r : Z) : res (option Z) :=
  let* d := sub_ty t r l in
  Ok (if 1 <? d then Some (midpoint l r) else None).

(** uint64_t; a double is represented by its 64 bits. *)
Definition u64 : ity := {| i_signed := false; i_bits := 64 |}.
(* adv_utils.hpp:88-100 middle<double>: the middle of the representations, as unsigned integers *)
Definition middle_double (l r : Z) : res (option Z) := middle_int u64 l r.

(* adv_utils.hpp:51-62 binary_search.  The recursion is a tail recursion and is fuelled here.  The
   result carries the points at which the predicate was evaluated, in order.  The assertion of line
   55 (which evaluates the predicate at both ends in debug builds) is not part of the model. *)
Fixpoint binary_search (fuel : nat) (middle : Z -> Z -> res (option Z)) (pred : Z -> bool) (l r : Z)
  : res ((Z * Z) * list Z) :=
  match fuel with
  | O => Loop
  | S f =>
    let* m := middle l r in
    match m with
    | None => Ok ((l, r), [])
    | Some m =>
      let* (ab, tr) := if pred m then binary_search f middle pred l m else binary_search f middle pred m r in
      Ok (ab, m :: tr)
    end
  end.

(** ** Proofs *)
Definition sub_fits (t : ity) (l r : Z) : Prop :=
  i_signed (promoted t) = true -> r - l <= i_max (promoted t).

Lemma promoted_bits t : 0 < i_bits t -> i_bits t <= i_bits (promoted t) /\ 32 <= i_bits (promoted t).
Proof. unfold promoted. destruct (Z.ltb_spec (i_bits t) 32); cbn; lia. Qed.
Lemma middle_int_ok t l r : 0 < i_bits t -> in_ty t l -> in_ty t r -> l < r -> sub_fits t l r ->
  middle_int t l r = Ok (if 1 <? r - l then Some (l + (r - l) / 2) else None).
Proof.
  intros Hb Hl Hr Hlt Hf. unfold middle_int, sub_ty. destruct (promoted_bits t Hb) as [Hp Hp32].
  destruct (i_signed (promoted t)) eqn:Es.
  - specialize (Hf Es). assert (i_min (promoted t) <= 0).
    { unfold i_min. rewrite Es. assert (0 < 2 ^ (i_bits (promoted t) - 1)) by (apply Z.pow_pos_nonneg; lia). lia. }
    destruct (Z.leb_spec (i_min (promoted t)) (r - l)); [|lia].
    destruct (Z.leb_spec (r - l) (i_max (promoted t))); [|lia]. cbn [andb rbind].
    unfold midpoint. destruct (Z.leb_spec l r); [|lia]. reflexivity.
  - cbn [rbind]. assert (Et : i_signed t = false /\ promoted t = t).
    { unfold promoted in *. destruct (i_bits t <? 32); [discriminate|]. auto. }
    destruct Et as [Et Ep]. rewrite Ep. unfold in_ty, i_min, i_max in *. rewrite Et in *.
    rewrite Z.mod_small by lia. unfold midpoint. destruct (Z.leb_spec l r); [|lia]. reflexivity.
Qed.
Lemma mid_bounds d k : 1 < d -> d <= 2 * k -> 0 < d / 2 < d /\ d / 2 <= k /\ d - d / 2 <= k.
Proof. intros. Z.div_mod_to_equations. lia. Qed.

Lemma search_ok t pred (n : nat) : 0 < i_bits t -> forall l r fuel,
  in_ty t l -> in_ty t r -> l < r -> r - l <= 2 ^ Z.of_nat n -> sub_fits t l r ->
  pred l = false -> pred r = true -> (n < fuel)%nat ->
  exists a tr, binary_search fuel (middle_int t) pred l r = Ok ((a, a + 1), tr) /\
    l <= a /\ a + 1 <= r /\ pred a = false /\ pred (a + 1) = true /\
    Forall (fun m => l < m < r) tr /\ (length tr <= n)%nat.
Proof.
  intros Hb. induction n as [|n IH]; intros l r fuel Hl Hr Hlt Hd Hf Pl Pr Hfuel; destruct fuel as [|f]; try lia;
    cbn [binary_search]; rewrite middle_int_ok by assumption; cbn [rbind].
  - change (2 ^ Z.of_nat 0) with 1 in Hd. destruct (Z.ltb_spec 1 (r - l)); [lia|].
    exists l, []. replace (l + 1) with r by lia. repeat split; auto; lia.
  - destruct (Z.ltb_spec 1 (r - l)) as [H1|H1].
    + set (m := l + (r - l) / 2). rewrite Nat2Z.inj_succ, Z.pow_succ_r in Hd by lia.
      destruct (mid_bounds (r - l) _ H1 Hd) as (B1 & B2 & B3).
      assert (in_ty t m) by (unfold in_ty in *; lia).
      destruct (pred m) eqn:Pm.
      * destruct (IH l m f) as (a & tr & E & A1 & A2 & A3 & A4 & A5 & A6); try assumption; try lia.
        { intros Es. specialize (Hf Es). lia. }
        rewrite E. cbn [rbind]. exists a, (m :: tr). split; [reflexivity|]. repeat split; try assumption; try lia.
        { constructor; [lia|]. eapply Forall_impl; [|exact A5]. cbn. lia. }
        { cbn [length]. lia. }
      * destruct (IH m r f) as (a & tr & E & A1 & A2 & A3 & A4 & A5 & A6); try assumption; try lia.
        { intros Es. specialize (Hf Es). lia. }
        rewrite E. cbn [rbind]. exists a, (m :: tr). split; [reflexivity|]. repeat split; try assumption; try lia.
        { constructor; [lia|]. eapply Forall_impl; [|exact A5]. cbn. lia. }
        { cbn [length]. lia. }
    + exists l, []. replace (l + 1) with r by lia. cbn [length]. repeat split; auto; lia.
Qed.

(** ** C44 *)
(** Full property, for every integral type and every range whose width fits the type in which the
    difference is computed (always the case for unsigned types and for types narrower than int):
    the search returns an adjacent pair, evaluates the predicate only strictly inside the range, and
    at most n times when the range has at most 2^n elements. *)
Theorem C44_search_partial t pred l r (n : nat) :
  0 < i_bits t -> in_ty t l -> in_ty t r -> l < r -> r - l <= 2 ^ Z.of_nat n ->
  (i_signed t = false \/ i_bits t < 32 \/ r - l <= i_max t) ->
  pred l = false -> pred r = true ->
  exists a tr, (forall fuel, (n < fuel)%nat -> binary_search fuel (middle_int t) pred l r = Ok ((a, a + 1), tr)) /\
    l <= a /\ a + 1 <= r /\ pred a = false /\ pred (a + 1) = true /\
    Forall (fun m => l < m < r) tr /\ (length tr <= n)%nat.
Proof.
  intros Hb Hl Hr Hlt Hd Hc Pl Pr.
  assert (Hf : sub_fits t l r).
  { unfold sub_fits, promoted. destruct (Z.ltb_spec (i_bits t) 32) as [Hw|Hw]; cbn [i_signed i_bits].
    - intros _. unfold in_ty, i_min, i_max in *. cbn.
      assert (2 ^ i_bits t <= 2 ^ 31) by (apply Z.pow_le_mono_r; lia).
      assert (2 ^ i_bits t = 2 * 2 ^ (i_bits t - 1)) by (rewrite <- Z.pow_succ_r by lia; f_equal; lia).
      change (Z.pow_pos 2 31) with (2 ^ 31). destruct (i_signed t); lia.
    - intros Es. destruct Hc as [Hc|[Hc|Hc]]; [congruence|lia|exact Hc]. }
  destruct (search_ok t pred n Hb l r (S n) Hl Hr Hlt Hd Hf Pl Pr ltac:(lia)) as (a & tr & E & H).
  exists a, tr. split; [|exact H]. intros fuel Hfu.
  destruct (search_ok t pred n Hb l r fuel Hl Hr Hlt Hd Hf Pl Pr Hfu) as (a' & tr' & E' & _).
  rewrite E'. rewrite <- E. 
  assert (M : forall f g l r x, (f <= g)%nat -> binary_search f (middle_int t) pred l r = Ok x -> binary_search g (middle_int t) pred l r = Ok x).
  { clear. induction f as [|f IH]; intros g l r x Hg Hx; [discriminate|]. destruct g as [|g]; [lia|].
    cbn [binary_search] in *. destruct (middle_int t l r) as [[m|]| | | |]; cbn [rbind] in *; try discriminate; [|assumption].
    destruct (pred m).
    - destruct (binary_search f (middle_int t) pred l m) as [p| | | |] eqn:E; try discriminate. rewrite (IH g l m p) by (assumption || lia). assumption.
    - destruct (binary_search f (middle_int t) pred m r) as [p| | | |] eqn:E; try discriminate. rewrite (IH g m r p) by (assumption || lia). assumption. }
  rewrite <- E'. rewrite (M (S n) fuel l r _ ltac:(lia) E). rewrite E. reflexivity.
Qed.
Print Assumptions C44_search_partial.
Definition int32 : ity := {| i_signed := true; i_bits := 32 |}.
Example search_example :
  binary_search 40 (middle_int int32) (fun x => 1000 <=? x * x) 0 2000000000 = Ok ((31, 32),
   [1000000000; 500000000; 250000000; 125000000; 62500000; 31250000; 15625000; 7812500; 3906250; 1953125; 976562; 488281; 244140; 122070; 61035; 30517; 15258; 7629; 3814; 1907; 953; 476; 238; 119; 59; 29; 44; 36; 32; 30; 31])
  /\ in_ty int32 0 /\ in_ty int32 2000000000 /\ 2000000000 - 0 <= i_max int32.
Proof. vm_compute. repeat split; discriminate. Qed.

(** For int, a range wider than INT_MAX makes [r - l] overflow. *)
Theorem C44_search_refuted :
  exists t pred l r, 0 < i_bits t /\ in_ty t l /\ in_ty t r /\ l < r /\ pred l = false /\ pred r = true /\
    (forall x y, x <= y -> pred x = true -> pred y = true) /\
    forall fuel, binary_search (S fuel) (middle_int t) pred l r = UB.
Proof.
  exists int32, (fun x => 0 <=? x), (-2147483648), 2147483647. unfold in_ty.
  split; [reflexivity|]. split; [vm_compute; split; discriminate|]. split; [vm_compute; split; discriminate|].
  repeat split; try reflexivity. intros x y Hxy Hx. lia.
Qed.
Print Assumptions C44_search_refuted.

(** Doubles.  [dbl_lt a b]: the double represented by a is less than the one represented by b
    (sign and magnitude representation; no NaN). *)
Definition dbl_neg (b : Z) : bool := 2 ^ 63 <=? b.
Definition dbl_mag (b : Z) : Z := b mod 2 ^ 63.
Definition dbl_num (b : Z) : Prop := 0 <= b < 2 ^ 64 /\ dbl_mag b <= 0x7FF0000000000000.
Definition dbl_key (b : Z) : Z := if dbl_neg b then - dbl_mag b else dbl_mag b.
Definition dbl_lt (a b : Z) : Prop := dbl_key a < dbl_key b.

(** Non-negative doubles: the result is a pair of consecutive doubles. *)
Theorem C44_double_partial pred l r :
  dbl_num l -> dbl_num r -> dbl_neg l = false -> dbl_neg r = false -> dbl_lt l r ->
  pred l = false -> pred r = true ->
  exists a b tr, (forall fuel, (64 < fuel)%nat -> binary_search fuel middle_double pred l r = Ok ((a, b), tr)) /\
    dbl_num a /\ dbl_num b /\ pred a = false /\ pred b = true /\
    dbl_lt a b /\ (forall c, dbl_num c -> ~ (dbl_lt a c /\ dbl_lt c b)) /\
    (a = l \/ dbl_lt l a) /\ (b = r \/ dbl_lt b r) /\
    Forall (fun m => dbl_lt l m /\ dbl_lt m r) tr /\ (length tr <= 64)%nat.
Proof.
  intros [Hl Ml] [Hr Mr] Nl Nr Hlt Pl Pr.
  assert (K : forall x, 0 <= x < 2 ^ 63 -> dbl_neg x = false /\ dbl_mag x = x /\ dbl_key x = x).
  { intros x Hx. unfold dbl_key, dbl_neg, dbl_mag. destruct (Z.leb_spec (2 ^ 63) x); [lia|]. rewrite Z.mod_small by lia. auto. }
  assert (Hl' : 0 <= l < 2 ^ 63) by (unfold dbl_neg in Nl; lia).
  assert (Hr' : 0 <= r < 2 ^ 63) by (unfold dbl_neg in Nr; lia).
  destruct (K l Hl') as (_ & Kml & Kl). destruct (K r Hr') as (_ & Kmr & Kr).
  unfold dbl_lt in *. rewrite Kl, Kr in *. rewrite Kml in Ml. rewrite Kmr in Mr.
  destruct (C44_search_partial u64 pred l r 64) as (a & tr & E & A1 & A2 & A3 & A4 & A5 & A6); try assumption.
  - reflexivity.
  - unfold in_ty. cbn. lia.
  - unfold in_ty. cbn. lia.
  - change (2 ^ Z.of_nat 64) with (2 ^ 64). lia.
  - left. reflexivity.
  - exists a, (a + 1), tr.
    destruct (K a ltac:(lia)) as (Na & Ma & Ka). destruct (K (a + 1) ltac:(lia)) as (Nb & Mb & Kb).
    split; [exact E|]. rewrite Ka, Kb. unfold dbl_num. rewrite Ma, Mb.
    repeat split; try assumption; try lia.
    + apply Forall_forall. intros m Hm. rewrite Forall_forall in A5. specialize (A5 m Hm).
      destruct (K m ltac:(lia)) as (_ & _ & Km). rewrite Km. lia.
Qed.
Print Assumptions C44_double_partial.
Example double_example : (* 1.0 .. 2.0 *)
  dbl_num 0x3FF0000000000000 /\ dbl_num 0x4000000000000000 /\ dbl_lt 0x3FF0000000000000 0x4000000000000000 /\
  exists ab tr, binary_search 65 middle_double (fun x => 0x3FF6A09E667F3BCC <? x) 0x3FF0000000000000 0x4000000000000000 = Ok (ab, tr)
    /\ ab = (0x3FF6A09E667F3BCC, 0x3FF6A09E667F3BCD).
Proof.
  split; [vm_compute; repeat split; discriminate|]. split; [vm_compute; repeat split; discriminate|]. split; [reflexivity|].
  eexists _, _. split; [vm_compute; reflexivity|reflexivity].
Qed.

(** A search that starts at a negative double never terminates, whatever the predicate. *)
Theorem C44_double_negative_refuted pred l r :
  dbl_num l -> dbl_num r -> dbl_neg l = true -> dbl_lt l r ->
  pred l = false -> pred r = true ->
  forall fuel, binary_search fuel middle_double pred l r = Loop.
Proof.
  intros [Hl Ml] [Hr Mr] Nl Hlt Pl Pr fuel.
  assert (Hlr : 0 <= r < l /\ l <= 0xFFF0000000000000).
  { unfold dbl_lt, dbl_key in Hlt. rewrite Nl in Hlt. unfold dbl_neg, dbl_mag in *.
    assert (A : forall x, 2 ^ 63 <= x < 2 ^ 64 -> x mod 2 ^ 63 = x - 2 ^ 63).
    { intros x Hx. symmetry. apply Z.mod_unique with (q := 1); lia. }
    rewrite (A l) in * by lia. destruct (Z.leb_spec (2 ^ 63) r); [rewrite (A r) in Hlt by lia|]; lia. }
  clear Nl Hlt Hl Hr Ml Mr.
  revert l r Hlr Pl Pr. induction fuel as [|f IH]; intros l r Hlr Pl Pr; [reflexivity|].
  cbn [binary_search].
  assert (E : middle_double l r = Ok (Some (l - (l - r) / 2))).
  { unfold middle_double, middle_int, sub_ty. change (i_signed (promoted u64)) with false. cbn iota. cbn [rbind].
    change (2 ^ i_bits (promoted u64)) with (2 ^ 64).
    replace ((r - l) mod 2 ^ 64) with (r - l + 2 ^ 64) by (apply Z.mod_unique with (q := -1); lia).
    destruct (Z.ltb_spec 1 (r - l + 2 ^ 64)); [|lia].
    unfold midpoint. destruct (Z.leb_spec l r); [lia|]. reflexivity. }
  rewrite E. cbn [rbind]. set (m := l - (l - r) / 2).
  assert (r < m <= l) by (unfold m; Z.div_mod_to_equations; lia).
  destruct (pred m) eqn:Pm.
  - assert (m <> l) by congruence. rewrite (IH l m) by (assumption || lia). reflexivity.
  - rewrite (IH m r) by (assumption || lia). reflexivity.
Qed.
Print Assumptions C44_double_negative_refuted.
(** ... for instance from -2.0 to -1.0 looking for the first double above -1.5. *)
Example double_negative_example : dbl_num 0xC000000000000000 /\ dbl_num 0xBFF0000000000000 /\
  dbl_neg 0xC000000000000000 = true /\ dbl_lt 0xC000000000000000 0xBFF0000000000000 /\
  (dbl_key 0xBFF8000000000000 <? dbl_key 0xC000000000000000) = false /\ (dbl_key 0xBFF8000000000000 <? dbl_key 0xBFF0000000000000) = true.
Proof. vm_compute. repeat split; discriminate. Qed.
(** ... and from -1.0 to 1.0 the first point looked at is +infinity, outside the range. *)
Theorem C44_double_mixed_refuted :
  exists l r m, dbl_num l /\ dbl_num r /\ dbl_lt l r /\ middle_double l r = Ok (Some m) /\ dbl_lt r m.
Proof.
  exists 0xBFF0000000000000, 0x3FF0000000000000, 0x7FF0000000000000.
  vm_compute. repeat split; discriminate.
Qed.
Print Assumptions C44_double_mixed_refuted.
