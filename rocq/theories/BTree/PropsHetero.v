(** C67: lookups in the B-tree containers with a key of another type, through a transparent comparator. *)
From stdpp Require Import list.
From Coq Require Import Arith Lia ZifyBool ZifyNat.
From Verif.Common Require Import Res.
From Verif.BTree Require Import Tree TreeFacts Balance Search Spec SearchFacts Ops Iter OpsFacts SpecFacts Refine Refine2 Api ApiSpec ApiFacts PropsBTree Hetero HeteroFacts.
Local Open Scope nat_scope.
Local Open Scope res_scope.

(** The values of every container that a program can reach fall into those before q, those equivalent to q and those after q (i and j are
    the ends of the equivalent ones).  upper_bound(q) is at j.  lower_bound(q) is at i, unless the comparator returns an ordering, the
    search is binary and the keys are unique: then it is at one of the equivalent values (at i if there is at most one).
    find(q) gives an equivalent value, the first one with a bool comparator, and end() if there is none; contains(q) says which. *)
Theorem C67_lookup : forall {V K Q : Type} (key : V -> K) (lt : K -> K -> bool) (lo : K -> Q -> bool) (hi : Q -> K -> bool) kN m b l q,
  swo lt -> 3 <= kN -> ranged lt lo hi q -> reachable key lt kN m b -> values b = Ok l ->
  exists i j i' n cl cu cf, i <= j <= length l /\
    (forall p v, l !! p = Some v -> lo (key v) q = (p <? i) /\ hi q (key v) = (j <=? p)) /\
    hupper_bound key hi m b q = Ok cu /\ at_index b j = Ok cu /\
    hlower_bound key lo hi m b q = Ok cl /\ at_index b i' = Ok cl /\ hequal_range key lo hi m b q = Ok (cl, cu) /\
    (i = j -> i' = i) /\ (i < j -> i <= i' < j) /\ (three m = false \/ linear m = true \/ multi m = true -> i' = i) /\
    hfind key lo hi m b q = Ok cf /\ at_index b n = Ok cf /\
    (i = j -> n = length l) /\ (i < j -> i <= n < j) /\ (three m = false -> i < j -> n = i) /\
    hcontains key lo hi m b q = Ok (i <? j).
Proof.
  intros V K Q key lt lo hi kN m b l q Hlt HkN Hq Hb Hl. pose proof (reachable_values key lt kN m Hlt HkN b l Hb Hl) as Hr. pose proof (repr_sorted key lt kN m b l Hr) as Hs.
  destruct (hlower_bound_spec key lt lo hi kN m q Hlt HkN Hq b l Hr) as (cl & i' & Hcl & Hi' & H1 & H2 & H3).
  destruct (hupper_bound_spec key lt lo hi kN m q Hlt HkN Hq b l Hr) as (cu & Hcu & Hju).
  destruct (hfind_spec key lt lo hi kN m q Hlt HkN Hq b l Hr) as (cf & n & Hcf & Hn & H4 & H5).
  pose proof (qlower_upper key lt lo hi kN q HkN Hq l) as Hlu. pose proof (qupper_le key hi kN q HkN l) as Hul.
  exists (qlower key lo q l), (qupper key hi q l), i', n, cl, cu, cf.
  split; [lia|]. split.
  { intros p v Hp. rewrite (qlower_lookup key lt lo hi m q Hlt Hq l p v Hs Hp), (qupper_lookup key lt lo hi m q Hlt Hq l p v Hs Hp). split; [done|]. lia. }
  split; [done|]. split; [by eapply (at_index_it key lt kN m HkN)|]. split; [done|]. split; [by eapply (at_index_it key lt kN m HkN)|].
  split; [unfold hequal_range; by rewrite Hcl, Hcu|]. split; [lia|]. split; [intros; split; [lia|auto]|]. split; [exact H3|].
  split; [done|]. split; [by eapply (at_index_it key lt kN m HkN)|]. split; [done|]. split; [intros; apply H4; lia|]. split; [intros; apply H4; auto|].
  by apply (hcontains_spec key lt lo hi kN m q Hlt HkN Hq).
Qed.
Print Assumptions C67_lookup.

(** count(q) and erase(q) of the multi containers cover all the values equivalent to q and no other. *)
Theorem C67_multi_count_erase : forall {V K Q : Type} (key : V -> K) (lt : K -> K -> bool) (lo : K -> Q -> bool) (hi : Q -> K -> bool) kN m b l q,
  swo lt -> 3 <= kN -> ranged lt lo hi q -> multi m = true -> reachable key lt kN m b -> values b = Ok l ->
  let matching := List.filter (fun v => negb (lo (key v) q) && negb (hi q (key v))) l in
  hcount key lo hi m b q = Ok (length matching) /\
  exists b', herase key lo hi kN m b q = Ok (b', length matching) /\
    values b' = Ok (List.filter (fun v => lo (key v) q || hi q (key v)) l).
Proof.
  intros V K Q key lt lo hi kN m b l q Hlt HkN Hq Hmu Hb Hl matching. pose proof (reachable_values key lt kN m Hlt HkN b l Hb Hl) as Hr. pose proof (repr_sorted key lt kN m b l Hr) as Hs.
  pose proof (qlower_upper key lt lo hi kN q HkN Hq l) as Hlu. pose proof (qupper_le key hi kN q HkN l) as Hul.
  (* the list around the two bounds *)
  set (i := qlower key lo q l) in *. set (j := qupper key hi q l) in *.
  assert (Hcut : l = take i l ++ take (j - i) (drop i l) ++ drop j l).
  { rewrite <- (take_drop i l) at 1. f_equal. rewrite <- (take_drop (j - i) (drop i l)) at 1. f_equal. rewrite drop_drop. f_equal. lia. }
  assert (HA : Forall (fun v => lo (key v) q = true) (take i l)).
  { apply Forall_lookup. intros p v Hp. apply lookup_take_Some in Hp as [Hp Hpi]. rewrite (qlower_lookup key lt lo hi m q Hlt Hq l p v Hs Hp). fold i. lia. }
  assert (HB : Forall (fun v => lo (key v) q = false /\ hi q (key v) = false) (take (j - i) (drop i l))).
  { apply Forall_lookup. intros p v Hp. apply lookup_take_Some in Hp as [Hp Hpi]. rewrite lookup_drop in Hp.
    rewrite (qlower_lookup key lt lo hi m q Hlt Hq l _ v Hs Hp), (qupper_lookup key lt lo hi m q Hlt Hq l _ v Hs Hp). fold i j. lia. }
  assert (HC : Forall (fun v => hi q (key v) = true) (drop j l)).
  { apply Forall_lookup. intros p v Hp. rewrite lookup_drop in Hp. rewrite (qupper_lookup key lt lo hi m q Hlt Hq l _ v Hs Hp). fold j. lia. }
  assert (Hall : forall (f : V -> bool) (L : list V), Forall (fun v => f v = true) L -> List.filter f L = L).
  { clear. intros f L. induction 1 as [|v L Hv _ IH]; cbn; [done|]. by rewrite Hv, IH. }
  assert (Hnone : forall (f : V -> bool) (L : list V), Forall (fun v => f v = false) L -> List.filter f L = []).
  { clear. intros f L. induction 1 as [|v L Hv _ IH]; cbn; [done|]. by rewrite Hv. }
  assert (Hlen : length matching = j - i).
  { subst matching. rewrite Hcut at 1. rewrite !List.filter_app, !app_length. rewrite (Hnone _ (take i l)), (Hall _ (take (j - i) (drop i l))), (Hnone _ (drop j l)).
    - rewrite take_length, drop_length. cbn. lia.
    - eapply Forall_impl; [exact HC|]. cbn. intros v ->. apply andb_false_r.
    - eapply Forall_impl; [exact HB|]. cbn. by intros v [-> ->].
    - eapply Forall_impl; [exact HA|]. cbn. by intros v ->. }
  split; [rewrite (hcount_spec key lt lo hi kN m q Hlt HkN Hq b l Hr), Hmu; fold i j; by rewrite Hlen|].
  destruct (herase_spec key lt lo hi kN m q Hlt HkN Hq b l Hr) as (b' & p & He & Hr' & Hp). rewrite Hmu in He, Hr', Hp. fold i j in He, Hr', Hp.
  exists b'. split; [by rewrite Hlen|]. rewrite (repr_values key lt kN m HkN b' _ Hr'). f_equal.
  assert (p = i \/ j = i) as [->|Eij] by lia.
  - unfold remove_at. replace (i + (j - i)) with j by lia. rewrite Hcut at 3. rewrite !List.filter_app. rewrite (Hall _ (take i l)), (Hnone _ (take (j - i) (drop i l))), (Hall _ (drop j l)); [done|..].
    + eapply Forall_impl; [exact HC|]. cbn. intros v ->. apply orb_true_r.
    + eapply Forall_impl; [exact HB|]. cbn. by intros v [-> ->].
    + eapply Forall_impl; [exact HA|]. cbn. by intros v ->.
  - unfold remove_at. replace (j - i) with 0 in * by lia. rewrite Nat.add_0_r, take_drop. symmetry. apply Hall. apply Forall_lookup. intros n v Hn.
    rewrite (qlower_lookup key lt lo hi m q Hlt Hq l n v Hs Hn), (qupper_lookup key lt lo hi m q Hlt Hq l n v Hs Hn). fold i j. lia.
Qed.
Print Assumptions C67_multi_count_erase.

(** In btree_set and btree_map count(q) is 1 or 0 and erase(q) removes one equivalent value or none. *)
Theorem C67_unique_count_erase : forall {V K Q : Type} (key : V -> K) (lt : K -> K -> bool) (lo : K -> Q -> bool) (hi : Q -> K -> bool) kN m b l q,
  swo lt -> 3 <= kN -> ranged lt lo hi q -> multi m = false -> reachable key lt kN m b -> values b = Ok l ->
  ((Forall (fun v => lo (key v) q = true \/ hi q (key v) = true) l /\ hcount key lo hi m b q = Ok 0 /\ herase key lo hi kN m b q = Ok (b, 0)) \/
   (hcount key lo hi m b q = Ok 1 /\ exists L v R b', l = L ++ v :: R /\ lo (key v) q = false /\ hi q (key v) = false /\
      herase key lo hi kN m b q = Ok (b', 1) /\ values b' = Ok (L ++ R))).
Proof.
  intros V K Q key lt lo hi kN m b l q Hlt HkN Hq Hmu Hb Hl. pose proof (reachable_values key lt kN m Hlt HkN b l Hb Hl) as Hr. pose proof (repr_sorted key lt kN m b l Hr) as Hs.
  pose proof (qlower_upper key lt lo hi kN q HkN Hq l) as Hlu. pose proof (qupper_le key hi kN q HkN l) as Hul.
  pose proof (hcount_spec key lt lo hi kN m q Hlt HkN Hq b l Hr) as Hc. rewrite Hmu in Hc.
  assert (qlower key lo q l = qupper key hi q l \/ qlower key lo q l < qupper key hi q l) as [E|E] by lia.
  - left. split; [|split].
    + apply Forall_lookup. intros n v Hn. rewrite (qlower_lookup key lt lo hi m q Hlt Hq l n v Hs Hn), (qupper_lookup key lt lo hi m q Hlt Hq l n v Hs Hn). lia.
    + rewrite Hc. f_equal. lia.
    + unfold herase. rewrite Hmu. destruct (hinternal_find_spec key lt lo hi kN m q Hlt HkN Hq b l Hr) as (o & -> & Ho). cbn [rbind]. destruct o; [|done].
      destruct Ho as (i & _ & Hi & _). lia.
  - right. split; [rewrite Hc; f_equal; lia|]. destruct (herase_spec key lt lo hi kN m q Hlt HkN Hq b l Hr) as (b' & p & He & Hr' & Hp). rewrite Hmu in He, Hr', Hp.
    replace (Nat.min 1 (qupper key hi q l - qlower key lo q l)) with 1 in * by lia. destruct (lookup_lt_is_Some_2 l p) as [v Hv]; [lia|].
    exists (take p l), v, (drop (S p) l), b'. split; [by rewrite take_drop_middle|].
    rewrite (qlower_lookup key lt lo hi m q Hlt Hq l p v Hs Hv), (qupper_lookup key lt lo hi m q Hlt Hq l p v Hs Hv). split; [lia|]. split; [lia|]. split; [done|].
    rewrite (repr_values key lt kN m HkN b' _ Hr'). unfold remove_at. by rewrite Nat.add_1_r.
Qed.
Print Assumptions C67_unique_count_erase.

(** A key that stands for one key (std::string_view for std::string) behaves as that key does. *)
Theorem C67_same_as_key : forall {V K Q : Type} (key : V -> K) (lt : K -> K -> bool) (lo : K -> Q -> bool) (hi : Q -> K -> bool) kN m b q k,
  (forall x, lo x q = lt x k) -> (forall x, hi q x = lt k x) ->
  hlower_bound key lo hi m b q = lower_bound key lt m b k /\ hupper_bound key hi m b q = upper_bound key lt m b k /\ hfind key lo hi m b q = find key lt m b k /\
  hcount key lo hi m b q = (if multi m then count_multi key lt m b k else count_unique key lt m b k) /\
  herase key lo hi kN m b q = (if multi m then erase_multi key lt kN m b k else erase_unique key lt kN m b k).
Proof.
  intros V K Q key lt lo hi kN m b q k Hlo Hhi.
  assert (Hlb : forall (c1 : K -> Q -> bool) (c2 : K -> K -> bool) ks, (forall x, c1 x q = c2 x k) -> hlinear_bool c1 q ks = linear_bool c2 k ks).
  { intros c1 c2 ks H. induction ks as [|x ks IH]; cbn; [done|]. by rewrite H, IH. }
  assert (Hbb : forall (c1 : K -> Q -> bool) (c2 : K -> K -> bool) ks fuel s e, (forall x, c1 x q = c2 x k) -> hbinary_bool c1 q ks fuel s e = binary_bool c2 k ks fuel s e).
  { intros c1 c2 ks fuel s e H. revert s e. induction fuel as [|fuel IH]; intros s e; [done|]. cbn [hbinary_bool binary_bool]. destruct (s =? e); [done|]. cbv zeta.
    destruct (ks !! _) as [x|]; [|done]. by rewrite H, !IH. }
  assert (Hc3 : forall x, hcmp lo hi x q = cmp3 lt x k) by (intros x; unfold hcmp, cmp3; by rewrite Hlo, Hhi).
  assert (Hl3 : forall ks, hlinear_three lo hi q ks = linear_three lt k ks).
  { intros ks. induction ks as [|x ks IH]; cbn; [done|]. by rewrite Hc3, IH. }
  assert (Hb3 : forall mu ks fuel s e ex, hbinary_three lo hi mu q ks fuel s e ex = binary_three lt mu k ks fuel s e ex).
  { intros mu ks fuel. induction fuel as [|fuel IH]; intros s e ex; [done|]. cbn [hbinary_three binary_three]. destruct (s =? e); [done|]. cbv zeta.
    destruct (ks !! _) as [x|]; [|done]. by rewrite Hc3, !IH. }
  assert (Hnl : forall ks, hnode_lower lo hi m q ks = node_lower lt m k ks).
  { intros ks. unfold hnode_lower, node_lower. destruct (three m), (linear m); [apply Hl3|apply Hb3|by rewrite (Hlb lo lt)|by rewrite (Hbb lo lt)]. }
  assert (Hnu : forall ks, hnode_upper hi m q ks = node_upper lt m k ks).
  { intros ks. unfold hnode_upper, node_upper. assert (H : forall x, hupper_adapter hi x q = upper_adapter lt x k) by (intros x; unfold hupper_adapter, upper_adapter; by rewrite Hhi).
    destruct (linear m); [by rewrite (Hlb _ (upper_adapter lt))|by rewrite (Hbb _ (upper_adapter lt))]. }
  assert (Hd : forall (p1 p2 : list K -> nat * bool), (forall ks, p1 ks = p2 ks) -> forall fuel stop t ps, descend key fuel stop p1 t ps = descend key fuel stop p2 t ps).
  { intros p1 p2 H fuel. induction fuel as [|fuel IH]; intros stop [|a k0 rest] ps; try done. cbn [descend]. rewrite H. destruct (p2 _) as [i e].
    destruct (child_at _ _) as [[f t']| | | |]; [|done..]. cbn [rbind]. by rewrite IH. }
  assert (Hil : hinternal_lower key lo hi m b q = internal_lower_bound key lt m b k) by (unfold hinternal_lower, internal_lower_bound; by rewrite (Hd _ _ Hnl)).
  assert (Hiu : hinternal_upper key hi m b q = internal_upper_bound key lt m b k) by (unfold hinternal_upper, internal_upper_bound; by rewrite (Hd _ _ Hnu)).
  assert (Hif : hinternal_find key lo hi m b q = internal_find key lt m b k).
  { unfold hinternal_find, internal_find, hlocate, internal_locate. rewrite (Hd _ _ Hnl). destruct (descend _ _ _ _ _ _) as [[c e]| | | |]; [|done..]. cbn [rbind].
    destruct (three m); [done|]. destruct (internal_last c); [|done]. destruct (value c0); [|done..]. cbn [rbind]. by rewrite Hhi. }
  assert (H1 : hlower_bound key lo hi m b q = lower_bound key lt m b k) by (unfold hlower_bound, lower_bound; by rewrite Hil).
  assert (H2 : hupper_bound key hi m b q = upper_bound key lt m b k) by (unfold hupper_bound, upper_bound; by rewrite Hiu).
  split; [done|]. split; [done|]. split; [unfold hfind, find; by rewrite Hif|]. split.
  - unfold hcount, hequal_range, count_multi, count_unique. rewrite H1, H2, Hif. destruct (multi m); [|done]. destruct (lower_bound key lt m b k); [|done..]. cbn [rbind]. by destruct (upper_bound key lt m b k).
  - unfold herase, erase_multi, erase_unique. rewrite Hil, H2, Hif. done.
Qed.
Print Assumptions C67_same_as_key.

(** ** the keys 0..19 in the decades 0 and 1 *)
Definition decade_lo (x d : nat) : bool := x / 10 <? d.
Definition decade_hi (d x : nat) : bool := d <? x / 10.
Lemma decade_ranged d : ranged Nat.ltb decade_lo decade_hi d.
Proof.
  unfold decade_lo, decade_hi. assert (Hm : forall x y, (y <? x) = false -> x / 10 <= y / 10). { intros x y H. apply Nat.div_le_mono; lia. }
  split; [intros x y H1 H2; specialize (Hm _ _ H1); lia|intros x y H1 H2; specialize (Hm _ _ H1); lia|intros x H; lia].
Qed.
Example C67_example : ranged Nat.ltb decade_lo decade_hi 1 /\ reachable (fun x : nat => x) Nat.ltb 3 set_mode a_set /\ values a_set = Ok (seq 0 20) /\
  exists cl cu, hequal_range (fun x : nat => x) decade_lo decade_hi set_mode a_set 1 = Ok (cl, cu) /\ value cl = Ok 10 /\ end_ a_set = Ok cu /\
    hfind (fun x : nat => x) decade_lo decade_hi set_mode a_set 1 = Ok cl.
Proof.
  split; [apply decade_ranged|]. split; [apply a_set_reachable|]. split; [apply a_set_reachable|]. do 2 eexists. split; [vm_compute; reflexivity|].
  split; [vm_compute; reflexivity|]. split; vm_compute; reflexivity.
Qed.
(** equal_range(q) of a set spans ten values, count(q) is 1: std::set counts ten *)
Theorem C67_count_refuted : exists (b : btree nat) l q cl cu n, ranged Nat.ltb decade_lo decade_hi q /\ reachable (fun x : nat => x) Nat.ltb 3 set_mode b /\ values b = Ok l /\
  hequal_range (fun x : nat => x) decade_lo decade_hi set_mode b q = Ok (cl, cu) /\ distance (b_size b) cl cu = Ok n /\
  n = length (List.filter (fun x => negb (decade_lo x q) && negb (decade_hi q x)) l) /\ hcount (fun x : nat => x) decade_lo decade_hi set_mode b q <> Ok n.
Proof.
  exists a_set, (seq 0 20), 1. do 3 eexists. split; [apply decade_ranged|]. split; [apply a_set_reachable|]. split; [apply a_set_reachable|].
  split; [vm_compute; reflexivity|]. split; [vm_compute; reflexivity|]. split; [vm_compute; reflexivity|]. vm_compute. congruence.
Qed.
Print Assumptions C67_count_refuted.
(** erase(q) of a set leaves values that are equivalent to q: contains(q) stays true *)
Theorem C67_erase_refuted : exists (b b' : btree nat) q, ranged Nat.ltb decade_lo decade_hi q /\ reachable (fun x : nat => x) Nat.ltb 3 set_mode b /\
  herase (fun x : nat => x) decade_lo decade_hi 3 set_mode b q = Ok (b', 1) /\ hcontains (fun x : nat => x) decade_lo decade_hi set_mode b' q = Ok true.
Proof.
  exists a_set. eexists. exists 1. split; [apply decade_ranged|]. split; [apply a_set_reachable|]. split; vm_compute; reflexivity.
Qed.
Print Assumptions C67_erase_refuted.
(** with a comparator that returns an ordering, lower_bound(q) of a set need not be the first value that is not before q *)
Definition a_set3 : btree nat := match run (fun x : nat => x) Nat.ltb 3 set_mode3 new_btree [InsertRange (seq 0 3)] with Ok (b, _) => b | _ => new_btree end.
Theorem C67_lower_bound_refuted : exists (b : btree nat) l q c v w, ranged Nat.ltb decade_lo decade_hi q /\ reachable (fun x : nat => x) Nat.ltb 3 set_mode3 b /\ values b = Ok l /\
  hlower_bound (fun x : nat => x) decade_lo decade_hi set_mode3 b q = Ok c /\ value c = Ok v /\ In w l /\ decade_lo w q = false /\ w < v.
Proof.
  exists a_set3, (seq 0 3), 0. do 2 eexists. exists 0. split; [apply decade_ranged|]. split. { exists [InsertRange (seq 0 3)], [RUnit]. split; [by safe_step|by vm_compute]. }
  split; [vm_compute; reflexivity|]. split; [vm_compute; reflexivity|]. split; [vm_compute; reflexivity|]. split; [apply in_seq; lia|]. split; [vm_compute; reflexivity|]. vm_compute. lia.
Qed.
Print Assumptions C67_lower_bound_refuted.
Example C67_multi_example : exists b', hcount fst (fun x d => x <? d) (fun d x => d <? x) multi_mode3 a_multi 1 = Ok 5 /\
  herase fst (fun x d => x / 2 <? d) (fun d x => d <? x / 2) 3 multi_mode3 a_multi 0 = Ok (b', 10) /\ values b' = Ok [(2,2);(2,5);(2,8);(2,11)].
Proof. eexists. split; [vm_compute; reflexivity|]. split; vm_compute; reflexivity. Qed.
