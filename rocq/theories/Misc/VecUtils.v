(** C47: cat, slice and map (vec_utils.hpp). *)
From stdpp Require Import list list_numbers.
From Coq Require Import ZArith Lia.
From Coq Require Import ZifyBool ZifyNat.
From Verif.Common Require Import Res.
Open Scope Z_scope.
Open Scope res_scope.

Section V.
Context {A B : Type}.

(** ** Model.  A vector is its list of elements; an iterator is its index. *)
(* vec_utils.hpp:36-42: [res] is empty, then each argument is inserted at its end.  (Arguments may
   repeat: res is a separate object.) *)
Definition cat (vs : list (list A)) : list A := fold_left (fun res v => res ++ v) vs [].
(* vec_utils.hpp:65-76 *)
Definition map_ (f : A -> B) (v : list A) : list B := fold_left (fun res x => res ++ [f x]) v [].

(** iterator arithmetic: leaving [begin, end] is UB *)
Definition iter (v : list A) (k : Z) : res Z := if (0 <=? k) && (k <=? Z.of_nat (length v)) then Ok k else UB.
Definition deref (v : list A) (k : Z) : res A := if 0 <=? k then of_option (v !! Z.to_nat k) else UB.
(** [max_size]: std::vector::reserve throws length_error beyond it; at most 2^63 - 1 *)
Definition max_size : Z := 2 ^ 63 - 1.
Fixpoint collect (n : nat) (v : list A) (k stride : Z) (acc : list A) : res (list A) :=
  match n with
  | O => Ok acc
  | S n' =>
    let* x := deref v k in
    let* k' := iter v (k + stride) in
    collect n' v k' stride (acc ++ [x])
  end.
(* vec_utils.hpp:47-60.  first, last and stride are ints. *)
Definition slice (v : list A) (first last stride : Z) : res (list A) :=
  let n := Z.of_nat (length v) in
  let* f := iter v (if 0 <=? first then first else n + (first + 1)) in
  let* l := iter v (if 0 <=? last then last else n + (last + 1)) in
  if f <? l then
    if stride =? 0 then UB
    else
      let cnt := (Z.quot (l - f) stride) mod 2 ^ 64 in
      if max_size <? cnt then Throw else collect (Z.to_nat cnt) v f stride []
  else Ok [].

(** ** Specification *)
(** the position an index stands for: -1 is the end, as the default argument says *)
Definition position (v : list A) (i : Z) : Z := if 0 <=? i then i else Z.of_nat (length v) + i + 1.
Definition in_range (v : list A) (i : Z) : Prop := 0 <= position v i <= Z.of_nat (length v).
(** the elements at the positions f, f + stride, f + 2 stride, ... before l *)
Fixpoint every (stride : nat) (skip : nat) (l : list A) : list A :=
  match l with
  | [] => []
  | x :: l' => match skip with O => x :: every stride (stride - 1) l' | S k => every stride k l' end
  end.
Definition slice_spec (v : list A) (first last stride : Z) : list A :=
  let f := Z.to_nat (position v first) in let l := Z.to_nat (position v last) in
  every (Z.to_nat stride) 0 (take (l - f) (drop f v)).

(** ** C47 *)
Theorem C47_cat vs : cat vs = concat vs.
Proof.
  unfold cat. change (concat vs) with ([] ++ concat vs). generalize (@nil A) as acc.
  induction vs as [|v vs IH]; intros acc; cbn; [rewrite app_nil_r; reflexivity|].
  rewrite IH, app_assoc. reflexivity.
Qed.
Theorem C47_map f v : map_ f v = map f v.
Proof.
  unfold map_. assert (G : forall acc, fold_left (fun res x => res ++ [f x]) v acc = acc ++ map f v).
  { induction v as [|x v IH]; intros acc; cbn; [rewrite app_nil_r; reflexivity|].
    rewrite IH, <- app_assoc. reflexivity. }
  apply G.
Qed.

Lemma every_skip stride k l : every stride k l = every stride 0 (drop k l).
Proof. revert k. induction l as [|x l IH]; intros [|k]; cbn; try reflexivity. apply IH. Qed.
Lemma collect_spec st : (0 < st)%nat -> forall n v k acc, (k + n * st <= length v)%nat ->
  collect n v (Z.of_nat k) (Z.of_nat st) acc = Ok (acc ++ every st 0 (take (n * st) (drop k v))).
Proof.
  intros Hst. induction n as [|n IH]; intros v k acc Hk; cbn [collect].
  - cbn. rewrite app_nil_r. reflexivity.
  - assert (Hlt : (k < length v)%nat) by nia. destruct (lookup_lt_is_Some_2 v k Hlt) as [x Hx].
    unfold deref. replace (0 <=? Z.of_nat k) with true by lia. rewrite Nat2Z.id, Hx. cbn [of_option rbind].
    unfold iter. replace ((0 <=? Z.of_nat k + Z.of_nat st) && (Z.of_nat k + Z.of_nat st <=? Z.of_nat (length v))) with true by nia.
    cbn [rbind]. rewrite <- Nat2Z.inj_add. rewrite IH by nia. f_equal. rewrite <- app_assoc. f_equal.
    rewrite (drop_S v x k Hx). replace (S n * st)%nat with (S (st - 1 + n * st))%nat by nia. cbn [take every app]. f_equal.
    rewrite (every_skip st (st - 1)). f_equal. rewrite skipn_firstn_comm. rewrite drop_drop. f_equal; [lia|]. f_equal. lia.
Qed.
Lemma every_take_more st : (0 < st)%nat -> forall n r (l : list A), (r < st)%nat -> length l = (n * st + r)%nat ->
  every st 0 l = every st 0 (take (n * st) l) ++ match r with O => [] | S _ => take 1 (drop (n * st) l) end.
Proof.
  intros Hst. induction n as [|n IH]; intros r l Hr Hl.
  - cbn. destruct r as [|r]; [destruct l; [reflexivity|discriminate]|].
    destruct l as [|x l]; [discriminate|]. cbn. rewrite take_0. f_equal. rewrite every_skip. rewrite drop_ge; [reflexivity|]. cbn in Hl. lia.
  - destruct l as [|x l]; [cbn in Hl; nia|].
    replace (S n * st)%nat with (S (st - 1 + n * st))%nat by nia. cbn [take drop every app].
    rewrite !(every_skip st (st - 1)). rewrite (IH r (drop (st - 1) l) Hr).
    + cbn [app]. f_equal. rewrite skipn_firstn_comm. replace (st - 1 + n * st - (st - 1))%nat with (n * st)%nat by lia.
      rewrite !drop_drop. reflexivity.
    + rewrite drop_length. cbn in Hl. nia.
Qed.

(** A slice with a positive stride of a vector shorter than 2^63, both indices being inside it, never
    goes wrong, and returns every stride-th element - except that the last one is missing when the
    stride does not divide the length of the range. *)
Theorem C47_slice_partial v first last stride :
  in_range v first -> in_range v last -> 0 < stride -> Z.of_nat (length v) <= max_size ->
  exists w, slice v first last stride = Ok w /\
    (Z.rem (Z.max 0 (position v last - position v first)) stride = 0 -> w = slice_spec v first last stride) /\
    (Z.rem (Z.max 0 (position v last - position v first)) stride <> 0 -> exists x, slice_spec v first last stride = w ++ [x]).
Proof.
  unfold in_range. intros Hf Hl Hs Hn. unfold slice, slice_spec.
  assert (E : forall i, (if 0 <=? i then i else Z.of_nat (length v) + (i + 1)) = position v i) by (intros i; unfold position; destruct (0 <=? i); lia).
  rewrite !E. clear E. set (f := position v first) in *. set (l := position v last) in *.
  unfold iter. replace ((0 <=? f) && (f <=? Z.of_nat (length v))) with true by lia.
  replace ((0 <=? l) && (l <=? Z.of_nat (length v))) with true by lia. cbn [rbind].
  destruct (Z.ltb_spec f l) as [Hlt|Hge].
  - replace (stride =? 0) with false by lia.
    rewrite Z.max_r by lia. rewrite Z.quot_div_nonneg by lia. rewrite Z.rem_mod_nonneg by lia.
    assert (Hq : 0 <= (l - f) / stride <= l - f) by (split; [apply Z.div_pos; lia|apply Z.div_le_upper_bound; nia]).
    unfold max_size in *. rewrite Z.mod_small by lia. replace (2 ^ 63 - 1 <? (l - f) / stride) with false by lia.
    set (q := Z.to_nat ((l - f) / stride)). set (st := Z.to_nat stride).
    set (r := Z.to_nat ((l - f) mod stride)).
    pose proof (Z.mod_pos_bound (l - f) stride Hs) as Hm. pose proof (Z.div_mod (l - f) stride ltac:(lia)) as Hd.
    assert (Hlen : (Z.to_nat l - Z.to_nat f = q * st + r)%nat).
    { apply Nat2Z.inj. rewrite Nat2Z.inj_add, Nat2Z.inj_mul. unfold q, st, r. rewrite !Z2Nat.id by lia. lia. }
    assert (Ec : collect q v f stride [] = collect q v (Z.of_nat (Z.to_nat f)) (Z.of_nat st) []) by (f_equal; lia).
    rewrite Ec, collect_spec by (unfold st; lia). cbn [app]. eexists. split; [reflexivity|].
    set (w := take (Z.to_nat l - Z.to_nat f) (drop (Z.to_nat f) v)).
    assert (Hw : length w = (q * st + r)%nat) by (unfold w; rewrite take_length, drop_length; lia).
    assert (Et : take (q * st) (drop (Z.to_nat f) v) = take (q * st) w).
    { unfold w. rewrite take_take. f_equal. lia. }
    rewrite Et. rewrite (every_take_more st ltac:(unfold st; lia) q r w ltac:(unfold st, r; lia) Hw).
    split; intros Hr; destruct r as [|r'] eqn:Er.
    + rewrite app_nil_r. reflexivity.
    + exfalso. unfold r in Er. lia.
    + exfalso. unfold r in Er. lia.
    + destruct (drop (q * st) w) as [|x y] eqn:Ed.
      * apply (f_equal length) in Ed. rewrite drop_length in Ed. cbn in Ed. lia.
      * exists x. cbn. rewrite take_0. reflexivity.
  - eexists. split; [reflexivity|]. rewrite Z.max_l by lia. rewrite Z.rem_0_l by lia. split; [intros _|congruence].
    replace (Z.to_nat l - Z.to_nat f)%nat with 0%nat by lia. reflexivity.
Qed.
End V.
Print Assumptions C47_cat.
Print Assumptions C47_map.
Print Assumptions C47_slice_partial.

(** slice(v, 0, -1, 2) of five elements returns two of the three elements. *)
Theorem C47_slice_stride_refuted : exists (v : list Z) w,
  in_range v 0 /\ in_range v (-1) /\ slice v 0 (-1) 2 = Ok w /\ slice_spec v 0 (-1) 2 = [10; 30; 50] /\ w = [10; 30].
Proof. exists [10; 20; 30; 40; 50], [10; 30]. vm_compute. repeat split; discriminate. Qed.
Print Assumptions C47_slice_stride_refuted.
(** A negative index is not Python's: v[-1] is past the end, so slice(v, -1) is empty and slice(v, -2, -1)
    is the last element, not the one before it. *)
Theorem C47_negative_index_refuted : exists v : list Z,
  slice v (-1) (Z.of_nat (length v)) 1 = Ok [] /\ slice v (-2) (-1) 1 = Ok [50] /\ (* Python: [50] and [40] *) v = [10; 20; 30; 40; 50].
Proof. exists [10; 20; 30; 40; 50]. vm_compute. auto. Qed.
Print Assumptions C47_negative_index_refuted.
(** A negative stride never reverses: for every non-empty range it throws length_error, or returns
    nothing when it is longer than the range; indices outside the vector are undefined behaviour
    (Python clamps them). *)
Theorem C47_negative_stride_refuted {A} (v : list A) first last stride :
  in_range v first -> in_range v last -> position v first < position v last -> stride < 0 -> Z.of_nat (length v) < 2 ^ 63 ->
  slice v first last stride = (if position v last - position v first <? - stride then Ok [] else Throw).
Proof.
  unfold in_range. intros Hf Hl Hlt Hs Hn. unfold slice.
  assert (E : forall i, (if 0 <=? i then i else Z.of_nat (length v) + (i + 1)) = position v i) by (intros i; unfold position; destruct (0 <=? i); lia).
  rewrite !E. clear E. set (f := position v first) in *. set (l := position v last) in *.
  unfold iter. replace ((0 <=? f) && (f <=? Z.of_nat (length v))) with true by lia.
  replace ((0 <=? l) && (l <=? Z.of_nat (length v))) with true by lia. cbn [rbind].
  replace (f <? l) with true by lia. replace (stride =? 0) with false by lia.
  replace (Z.quot (l - f) stride) with (- ((l - f) / (- stride))).
  2:{ replace stride with (- (- stride)) at 2 by lia. rewrite Z.quot_opp_r by lia. rewrite Z.quot_div_nonneg by lia. reflexivity. }
  destruct (Z.ltb_spec (l - f) (- stride)) as [Hlt'|Hge].
  - rewrite Z.div_small by lia. reflexivity.
  - assert (Hq : 1 <= (l - f) / - stride <= l - f) by (split; [apply Z.div_le_lower_bound; lia|apply Z.div_le_upper_bound; nia]).
    set (q := (l - f) / - stride) in *. unfold max_size. rewrite <- (Z.mod_add (- q) 1) by lia. rewrite Z.mod_small by lia.
    replace (2 ^ 63 - 1 <? - q + 1 * 2 ^ 64) with true by lia. reflexivity.
Qed.
Print Assumptions C47_negative_stride_refuted.
Theorem C47_out_of_range_refuted : exists v : list Z, slice v 0 6 1 = UB /\ slice v (-7) (-1) 1 = UB.
Proof. exists [10; 20; 30; 40; 50]. vm_compute. auto. Qed.
Print Assumptions C47_out_of_range_refuted.

Example ex_slice : slice [10; 20; 30; 40; 50] 1 (-1) 2 = Ok [20; 40] /\ slice_spec [10; 20; 30; 40; 50] 1 (-1) 2 = [20; 40]
  /\ in_range [10; 20; 30; 40; 50] 1 /\ in_range [10; 20; 30; 40; 50] (-1).
Proof. vm_compute. repeat split; discriminate. Qed.
Example ex_cat : cat [[1]; [2; 3]; [1]] = [1; 2; 3; 1].
Proof. reflexivity. Qed.
