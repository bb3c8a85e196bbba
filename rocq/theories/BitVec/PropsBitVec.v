(** The bit vector properties C23-C29. *)
From stdpp Require Import list.
From Coq Require Import Arith NArith ZArith Lia.
From Coq Require Import ZifyBool ZifyNat ZifyN.
From Verif.Common Require Import Res Word WordFacts.
From Verif.BitVec Require Import Model Bits VisitProof Loops Spec SpecFacts OpsProof Popcount Observe HexProof History.
Ltac Zify.zify_post_hook ::= Z.div_mod_to_equations.
Local Open Scope nat_scope.
Local Open Scope res_scope.

(** The vectors a program can hold: every history of valid calls, starting with no vector at all. *)
Definition reachable (st : storage) : Prop :=
  exists os ss a r, valid_run [] os /\ code_run [] os = Ok (ss, a) /\ ss !! r = Some st.
Lemma rep_nil : rep [] [].
Proof. split; [constructor|reflexivity]. Qed.
Lemma reachable_wf st : reachable st -> wf st.
Proof.
  intros (os & ss & a & r & HV & HR & Hs). destruct (run_ok os [] [] rep_nil HV) as (ss' & HR' & HP). rewrite HR in HR'.
  injection HR' as <- _. destruct HP as [HP _]. rewrite Forall_lookup in HP. eauto.
Qed.
Ltac reach H := apply reachable_wf in H.

(** ** C23 *)
(** Any program over any number of bit vectors, of any sizes: every call succeeds (no undefined behaviour, no read or
    write outside the words), every answer is the one the list specification gives, and so are the final bits. *)
Theorem C23_programs_refine_bool_lists os : valid_run [] os ->
  exists ss, code_run [] os = Ok (ss, snd (spec_run [] os)) /\ map bits ss = fst (spec_run [] os).
Proof. intros HV. destruct (run_ok os [] [] rep_nil HV) as (ss & ? & _ & ?). eauto. Qed.
Print Assumptions C23_programs_refine_bool_lists.
(* a program on two vectors of 130 and 70 bits that crosses word boundaries *)
Definition demo : list op :=
  [ONew 130 false; ONew 70 true; OSet 0 129 true; OVSet 0 60 70; OFlip 1 64; OBin BXor 0 5 75 1 0 70; OBin BAssign 1 0 64 0 3 67;
   OShl 0 0 130 67; OShr 0 1 100 3; OResize 0 200 false; OResize 1 64 false; OResize 1 128 true; OBin BOrNot 0 10 40 0 11 41; OFlipAll 1;
   OStore 0 130 190 12345%N; OCopy 1 0; OFlip 1 7;
   OCount 0; OFindFirst 0; OVFindNext 0 64 192 3; OEq 0 8 200 1 8 200; OEq 0 0 200 1 0 200; OContains 0 0 200 1 0 200; ODisjoint 0 0 30 1 40 180;
   OString 0 3 80; OBinString 1; OULL 0; OAny 0; OEvery 0; OSize 1].
(* a decidable form of [valid_run], so that examples can be checked by computation *)
Definition view_inb (m : regs) (r f l : nat) : bool := (r <? length m) && (f <=? l) && (l <=? length (reg m r)).
Definition find_safeb (f l : nat) : bool := (f mod 64 =? 0) || (l mod 64 =? 0) || (f / 64 =? l / 64).
Definition validb (m : regs) (o : op) : bool :=
  match o with
  | ONew _ _ => true
  | OOfWords ws => forallb (fun w => (w <? 2 ^ 64)%N) ws
  | OCopy r s => (r <? length m) && (s <? length m)
  | OGet r i | OSet r i _ | OFlip r i => (r <? length m) && (i <? length (reg m r))
  | OFill r _ | OFlipAll r | OAny r | OEvery r | OCount r | OFindFirst r | OBinString r | OULL r | OSize r => r <? length m
  | OVSet r f l | OVReset r f l | OVFlip r f l | OShl r f l _ | OShr r f l _ | OVAny r f l | OVEvery r f l | OVCount r f l | OString r f l => view_inb m r f l
  | OVFindFirst r f l => view_inb m r f l && find_safeb f l
  | OVFindNext r f l i => view_inb m r f l && find_safeb (f + i) l
  | OBin k r f l s g h => view_inb m r f l && view_inb m s g h && (h - g =? l - f) &&
      (negb (r =? s) || (f <=? g) || match k with BAssign => f =? h | _ => h <=? f end)
  | OEq r f l s g h | ODisjoint r f l s g h => view_inb m r f l && view_inb m s g h
  | OContains r f l s g h => view_inb m r f l && view_inb m s g h && (h - g =? l - f)
  | OResize r n v => (r <? length m) && (negb v || (n <=? length (reg m r)) || (length (reg m r) mod 64 =? 0))
  | OStore r f l v => view_inb m r f l && (f <? l) && (f / 64 =? (l - 1) / 64) && (v <? 2 ^ 64)%N
  end.
Lemma view_inb_ok m r f l : view_inb m r f l = true -> view_in m r f l.
Proof. unfold view_inb, view_in. intros H. apply andb_prop in H as [H H3]. apply andb_prop in H as [H1 H2]. apply Nat.ltb_lt in H1. apply Nat.leb_le in H2, H3. auto. Qed.
Lemma find_safeb_ok f l : find_safeb f l = true -> find_safe f l.
Proof. unfold find_safeb, find_safe. rewrite !orb_true_iff, !Nat.eqb_eq. tauto. Qed.
Lemma validb_ok m o : validb m o = true -> valid m o.
Proof.
  destruct o; cbn [validb valid]; intros H; repeat match goal with H : _ && _ = true |- _ => apply andb_prop in H as [? ?] end;
    repeat match goal with
    | H : view_inb _ _ _ _ = true |- _ => apply view_inb_ok in H
    | H : find_safeb _ _ = true |- _ => apply find_safeb_ok in H
    | H : (_ <? _) = true |- _ => apply Nat.ltb_lt in H
    | H : (_ <? _)%N = true |- _ => apply N.ltb_lt in H
    | H : (_ =? _) = true |- _ => apply Nat.eqb_eq in H
    end; auto 6.
  - apply Forall_forall. intros w Hw. rewrite forallb_forall in H. apply N.ltb_lt, H. apply elem_of_list_In. assumption.
  - split; [assumption|]. split; [assumption|]. split; [assumption|]. unfold no_clobber. repeat match goal with H : _ || _ = true |- _ => apply orb_prop in H as [H|H] end.
    + left. intros ->. rewrite Nat.eqb_refl in *. discriminate.
    + right. left. apply Nat.leb_le. assumption.
    + right. right. destruct k; try apply Nat.leb_le; try apply Nat.eqb_eq; assumption.
  - split; [assumption|]. intros ->. cbn [negb orb] in *. repeat match goal with H : _ || _ = true |- _ => apply orb_prop in H as [H|H] end; [left; apply Nat.leb_le; assumption|right; apply Nat.eqb_eq; assumption].
Qed.
Fixpoint valid_runb (m : regs) (os : list op) : bool :=
  match os with [] => true | o :: r => validb m o && valid_runb (fst (spec_step m o)) r end.
Lemma valid_runb_ok os : forall m, valid_runb m os = true -> valid_run m os.
Proof.
  induction os as [|o os IH]; intros m H; cbn [valid_run valid_runb] in *; [exact I|]. apply andb_prop in H as [H1 H2]. auto using validb_ok.
Qed.
Example demo_valid : valid_run [] demo.
Proof. apply valid_runb_ok. vm_compute. reflexivity. Qed.
Example demo_answers : skipn 17 (snd (spec_run [] demo)) <> [] /\
  (exists ss, code_run [] demo = Ok (ss, snd (spec_run [] demo))) /\ nth 20 (snd (spec_run [] demo)) AU = AB true /\ nth 21 (snd (spec_run [] demo)) AU = AB false.
Proof. split; [vm_compute; discriminate|]. split; [eexists; vm_compute; reflexivity|]. split; vm_compute; reflexivity. Qed.

(** No bit beyond size() is observable: the whole representation is determined by the booleans. *)
Theorem C23_nothing_beyond_size st1 st2 : reachable st1 -> reachable st2 -> bits st1 = bits st2 -> st1 = st2.
Proof. intros H1 H2. reach H1. reach H2. apply bits_ext; assumption. Qed.
Print Assumptions C23_nothing_beyond_size.
(* the same bits, reached with and without bits set beyond the size in between *)
Example C23_nothing_beyond_ex : exists st,
  code_run [] [ONew 128 true; OResize 0 70 false] = Ok ([st], [AU; AU]) /\ code_run [] [ONew 70 false; OFlipAll 0] = Ok ([st], [AU; AU]).
Proof. eexists. split; vm_compute; reflexivity. Qed.

(** ** C24 *)
Theorem C24_count st : reachable st -> vec_count st = Ok (N.of_nat (count_spec (bits st))).
Proof. intros H. reach H. apply vec_count_ok, H. Qed.
Print Assumptions C24_count.
Theorem C24_count_view st first last : reachable st -> first <= last -> last <= s_sz st ->
  view_count st first last = Ok (N.of_nat (count_spec (sub first last (bits st)))).
Proof. intros H H1 H2. reach H. apply view_count_ok; assumption. Qed.
Print Assumptions C24_count_view.
(** find_first of a whole vector: the least index of a set bit, or npos *)
Theorem C24_find_first st : reachable st -> exists r, vec_find_first st = Ok r /\
  match r with
  | Some i => i < s_sz st /\ nth i (bits st) false = true /\ forall j, j < i -> nth j (bits st) false = false
  | None => forall j, nth j (bits st) false = false
  end.
Proof.
  intros H. reach H. exists (find_spec (bits st)). split; [apply vec_find_first_ok, H|].
  destruct (find_spec (bits st)) as [i|] eqn:E.
  - apply find_spec_some in E. rewrite bits_length in E. exact E.
  - apply find_spec_none. exact E.
Qed.
Print Assumptions C24_find_first.
(** find_next of a whole vector, and find_first/find_next of a view: only when the scanned range starts at a word
    boundary, ends at one, or lies within one word.  The full statement (every range) is refuted below. *)
Theorem C24_find_next_partial st first last start : reachable st -> first <= last -> last <= s_sz st -> find_safe (first + start) last ->
  exists r, view_find_next st first last start = Ok r /\
  match r with
  | Some i => start <= i /\ first + i < last /\ nth (first + i) (bits st) false = true /\ forall j, start <= j -> j < i -> nth (first + j) (bits st) false = false
  | None => forall j, start <= j -> first + j < last -> nth (first + j) (bits st) false = false
  end.
Proof.
  intros H H1 H2 H3. reach H. eexists. split; [apply view_find_next_ok; assumption|]. unfold find_next_spec.
  pose proof (bits_length st) as Lb. destruct (find_spec _) as [i|] eqn:E.
  - apply find_spec_some in E. destruct E as (E1 & E2 & E3). rewrite skipn_length, sub_length in E1 by lia.
    rewrite nthb_drop, sub_nth in E2. apply andb_prop in E2. destruct E2 as [_ E2].
    repeat split; [lia|lia|replace (first + (i + start)) with (first + (start + i)) by lia; exact E2|].
    intros j J1 J2. specialize (E3 (j - start) ltac:(lia)). rewrite nthb_drop, sub_nth in E3.
    destruct (Nat.ltb_spec (start + (j - start)) (last - first)); [|lia]. cbn [andb] in E3. replace (first + j) with (first + (start + (j - start))) by lia. exact E3.
  - intros j J1 J2. rewrite find_spec_none in E. specialize (E (j - start)). rewrite nthb_drop, sub_nth in E.
    destruct (Nat.ltb_spec (start + (j - start)) (last - first)); [|lia]. cbn [andb] in E. replace (first + j) with (first + (start + (j - start))) by lia. exact E.
Qed.
Print Assumptions C24_find_next_partial.
(** Refuted: bit 128 of a 130-bit vector; find_next(1) answers 129. *)
Theorem C24_find_next_refuted : exists st start i, reachable st /\ start < s_sz st /\
  nth 128 (bits st) false = true /\ (forall j, j < s_sz st -> j <> 128 -> nth j (bits st) false = false) /\
  vec_find_next st start = Ok (Some i) /\ i = 129.
Proof.
  eexists. exists 1, 129. split; [exists [ONew 130 false; OSet 0 128 true]; do 2 eexists; exists 0; split; [apply valid_runb_ok; vm_compute; reflexivity|]; split; [vm_compute; reflexivity|reflexivity]|].
  split; [vm_compute; lia|]. split; [vm_compute; reflexivity|]. split; [|split; [vm_compute; reflexivity|reflexivity]].
  intros j Hj Hne.
  match goal with |- nth _ ?b _ = _ => assert (F : forallb (fun j => (j =? 128) || negb (nth j b false)) (seq 0 130) = true) by (vm_compute; reflexivity) end.
  rewrite forallb_forall in F. specialize (F j ltac:(apply in_seq; cbn in Hj; lia)). destruct (Nat.eqb_spec j 128); [contradiction|].
  apply negb_true_iff in F. exact F.
Qed.
Print Assumptions C24_find_next_refuted.
(** Refuted: view(1,129) whose only set bit is its last; find_first answers npos. *)
Theorem C24_find_view_refuted : exists st, reachable st /\ nth 127 (sub 1 129 (bits st)) false = true /\ view_find_first st 1 129 = Ok None.
Proof.
  eexists. split; [exists [ONew 130 false; OSet 0 128 true]; do 2 eexists; exists 0; split; [apply valid_runb_ok; vm_compute; reflexivity|]; split; [vm_compute; reflexivity|reflexivity]|].
  split; vm_compute; reflexivity.
Qed.
Print Assumptions C24_find_view_refuted.
(** What find_first of an arbitrary view does return, exactly: the right answer, unless the first set bit is in the partly
    covered last word and the view starts inside an earlier word; then the answer is too large by the offset of the
    start within its word, or npos if that passes the end. *)
Theorem C24_find_view_exact st first last : reachable st -> first <= last -> last <= s_sz st ->
  view_find_first st first last = Ok
    match find_spec (sub first last (bits st)) with
    | None => None
    | Some i =>
        if ((first + i) / 64 =? last / 64) && negb (first / 64 =? last / 64)
        then (if first + i + first mod 64 <? last then Some (i + first mod 64) else None)
        else Some i
    end.
Proof. intros H H1 H2. reach H. apply view_find_first_exact; assumption. Qed.
Print Assumptions C24_find_view_exact.

(** ** C25 *)
(** resize(n) (new bits false) is exact for every old and new size *)
Theorem C25_resize_false st n : reachable st ->
  exists st', resize st n false = Ok st' /\ s_sz st' = n /\ bits st' = resize_spec n false (bits st).
Proof. intros H. reach H. destruct (resize_ok st n false H) as (st' & ? & ? & _ & ?); [discriminate|]. eauto. Qed.
Print Assumptions C25_resize_false.
(** resize(n, true): proved when it does not grow, or when the old size is a multiple of 64.  The full statement drops the
    last hypothesis and is refuted below. *)
Theorem C25_resize_true_partial st n : reachable st -> n <= s_sz st \/ s_sz st mod 64 = 0 ->
  exists st', resize st n true = Ok st' /\ s_sz st' = n /\ bits st' = resize_spec n true (bits st).
Proof. intros H Hn. reach H. destruct (resize_ok st n true H) as (st' & ? & ? & _ & ?); [auto|]. eauto. Qed.
Print Assumptions C25_resize_true_partial.
Theorem C25_resize_true_refuted : exists st st', reachable st /\ s_sz st = 10 /\ resize st 20 true = Ok st' /\
  s_sz st' = 20 /\ forall i, nth i (bits st') false = false.
Proof.
  exists (mkS [0%N] 10). eexists. split; [exists [ONew 10 false]; do 2 eexists; exists 0; split; [apply valid_runb_ok; vm_compute; reflexivity|]; split; [vm_compute; reflexivity|reflexivity]|].
  split; [reflexivity|]. split; [vm_compute; reflexivity|]. split; [reflexivity|]. intros i.
  destruct (Nat.lt_ge_cases i 20) as [Hi|Hi]; [|apply nth_overflow; cbn; lia].
  assert (F : forallb (fun j => negb (nth j (bits (mkS [0%N] 20)) false)) (seq 0 20) = true) by (vm_compute; reflexivity).
  rewrite forallb_forall in F. apply negb_true_iff. apply F. apply in_seq. lia.
Qed.
Print Assumptions C25_resize_true_refuted.

(** ** C26 *)
(** set, reset, flip through a view: exactly the bits inside change *)
Theorem C26_view_fill st first last : reachable st -> first <= last -> last <= s_sz st ->
  (exists st', view_set first last st = Ok st' /\ s_sz st' = s_sz st /\ bits st' = splice first last (repeat true (last - first)) (bits st)) /\
  (exists st', view_reset first last st = Ok st' /\ s_sz st' = s_sz st /\ bits st' = splice first last (repeat false (last - first)) (bits st)) /\
  (exists st', view_flip first last st = Ok st' /\ s_sz st' = s_sz st /\ bits st' = splice first last (map negb (sub first last (bits st))) (bits st)).
Proof.
  intros H H1 H2. reach H. destruct (view_set_ok st first last H H1 H2) as (a & A1 & A2 & _ & A3).
  destruct (view_reset_ok st first last H H1 H2) as (b & B1 & B2 & _ & B3). destruct (view_flip_ok st first last H H1 H2) as (c & D1 & D2 & _ & D3). split; [|split]; eauto.
Qed.
Print Assumptions C26_view_fill.
(** combining with a view of another vector, of any alignment *)
Theorem C26_view_combine st ot k first last ofirst olast : reachable st -> reachable ot ->
  first <= last -> last <= s_sz st -> ofirst <= olast -> olast <= s_sz ot -> olast - ofirst = last - first -> k <> BAssign ->
  exists st', bin_assign (bk_word k) first last (Other ot) ofirst olast st = Ok st' /\ s_sz st' = s_sz st /\
    bits st' = splice first last (map2 (bk_spec k) (sub first last (bits st)) (sub ofirst olast (bits ot))) (bits st).
Proof.
  intros H Ho H1 H2 H3 H4 H5 _. reach H. reach Ho.
  destruct (bin_assign_ok (bk_word k) (bk_spec k) st first last (Other ot) ofirst olast (wop_all k)) as (st' & ? & ? & _ & ?); cbn [ost safe]; try assumption; try lia; eauto.
Qed.
Print Assumptions C26_view_combine.
(** combining with a view of the same vector: only when the operand does not start before the view while overlapping it *)
Theorem C26_combine_same_vector_partial st k first last ofirst olast : reachable st ->
  first <= last -> last <= s_sz st -> ofirst <= olast -> olast <= s_sz st -> olast - ofirst = last - first -> first <= ofirst \/ olast <= first ->
  exists st', bin_assign (bk_word k) first last Same ofirst olast st = Ok st' /\ s_sz st' = s_sz st /\
    bits st' = splice first last (map2 (bk_spec k) (sub first last (bits st)) (sub ofirst olast (bits st))) (bits st).
Proof.
  intros H H1 H2 H3 H4 H5 H6. reach H.
  destruct (bin_assign_ok (bk_word k) (bk_spec k) st first last Same ofirst olast (wop_all k)) as (st' & ? & ? & _ & ?); cbn [ost safe]; try assumption; try lia; eauto.
Qed.
Print Assumptions C26_combine_same_vector_partial.
(** Refuted: v.view(1,129) |= v.view(0,128) with only bit 62 set also sets bit 64, although neither bit 64 nor bit 63 was set. *)
Theorem C26_combine_overlap_refuted : exists st st', reachable st /\ s_sz st = 129 /\
  nth 64 (bits st) false = false /\ nth 63 (bits st) false = false /\
  bin_assign g_or 1 129 Same 0 128 st = Ok st' /\ nth 64 (bits st') false = true.
Proof.
  do 2 eexists. split; [exists [ONew 129 false; OSet 0 62 true]; do 2 eexists; exists 0; split; [apply valid_runb_ok; vm_compute; reflexivity|]; split; [vm_compute; reflexivity|reflexivity]|].
  do 3 (split; [vm_compute; reflexivity|]). split; vm_compute; reflexivity.
Qed.
Print Assumptions C26_combine_overlap_refuted.

(** ** C27 *)
(** assignment from a view of another vector; or of the same vector when the source does not start before the target *)
Theorem C27_assign_partial st ot (same : bool) first last ofirst olast : reachable st -> reachable ot -> (same = true -> ot = st) ->
  first <= last -> last <= s_sz st -> ofirst <= olast -> olast <= s_sz ot -> olast - ofirst = last - first ->
  (same = true -> first <= ofirst \/ first = olast) ->
  exists st', view_assign first last (if same then Same else Other ot) ofirst olast st = Ok st' /\ s_sz st' = s_sz st /\
    bits st' = splice first last (sub ofirst olast (bits ot)) (bits st).
Proof.
  intros H Ho Hso H1 H2 H3 H4 H5 Hs. reach H. reach Ho.
  change (view_assign first last (if same then Same else Other ot) ofirst olast st) with (code_bin BAssign first last (if same then Same else Other ot) ofirst olast st).
  rewrite (code_bin_eq BAssign first last (if same then Same else Other ot) ofirst olast st) by (try assumption; intros _; destruct same; auto).
  assert (Hm : map2 b_copy (sub first last (bits st)) (sub ofirst olast (bits ot)) = sub ofirst olast (bits ot)).
  { apply list_ext; [rewrite map2_length, !sub_length by (rewrite ?bits_length; assumption); lia|].
    intros i Hi. rewrite map2_length, !sub_length in Hi by (rewrite ?bits_length; assumption).
    rewrite map2_nth by (rewrite !sub_length by (rewrite ?bits_length; assumption); lia). reflexivity. }
  destruct (bin_assign_ok (bk_word BAssign) (bk_spec BAssign) st first last (if same then Same else Other ot) ofirst olast (wop_all _)) as (st' & E1 & E2 & _ & E3).
  all: destruct same; cbn [ost safe]; try assumption; try lia; try (rewrite <- Hso by reflexivity; assumption).
  - cbn [ost bk_spec] in E3. rewrite (Hso eq_refl) in Hm |- *. rewrite Hm in E3. eauto.
  - cbn [ost bk_spec] in E3. rewrite Hm in E3. eauto.
Qed.
Print Assumptions C27_assign_partial.
(** Refuted: v.view(3,67) = v.view(0,64) on a vector (overlapping, source first). *)
Theorem C27_assign_overlap_refuted : exists st st', reachable st /\ view_assign 3 67 Same 0 64 st = Ok st' /\
  sub 3 67 (bits st') <> sub 0 64 (bits st).
Proof.
  do 2 eexists. split; [exists [ONew 70 false; OSet 0 2 true; OSet 0 60 true; OSet 0 61 true]; do 2 eexists; exists 0; split; [apply valid_runb_ok; vm_compute; reflexivity|]; split; [vm_compute; reflexivity|reflexivity]|].
  split; [vm_compute; reflexivity|]. vm_compute. discriminate.
Qed.
Print Assumptions C27_assign_overlap_refuted.
(** Refuted: two disjoint views of one vector, source before the target: the copy goes the other way, overwriting the source. *)
Theorem C27_assign_direction_refuted : exists st st', reachable st /\ view_assign 80 90 Same 0 10 st = Ok st' /\
  nth 80 (bits st') false = nth 80 (bits st) false /\ nth 0 (bits st) false = true /\ nth 0 (bits st') false = false /\ nth 80 (bits st) false = false.
Proof.
  do 2 eexists. split; [exists [ONew 100 false; OVSet 0 0 10]; do 2 eexists; exists 0; split; [apply valid_runb_ok; vm_compute; reflexivity|]; split; [vm_compute; reflexivity|reflexivity]|].
  split; [vm_compute; reflexivity|]. repeat split; vm_compute; reflexivity.
Qed.
Print Assumptions C27_assign_direction_refuted.
(** view = uint64: proved for a view within one word *)
Theorem C27_store_partial st v first last : reachable st -> (v < 2 ^ 64)%N -> first < last -> last <= s_sz st -> first / 64 = (last - 1) / 64 ->
  exists st', view_store v first last st = Ok st' /\ s_sz st' = s_sz st /\ bits st' = splice first last (digits (last - first) v) (bits st).
Proof. intros H Hv H1 H2 H3. reach H. destruct (view_store_ok v st first last Hv H) as (st' & ? & ? & _ & ?); [lia|lia|lia|]. eauto. Qed.
Print Assumptions C27_store_partial.
(** Refuted: a view of at most 64 bits across a word boundary: a shift by a negative amount, undefined behaviour. *)
Theorem C27_store_straddle_refuted : exists st, reachable st /\ s_sz st = 128 /\ view_store 5 60 70 st = UB.
Proof.
  eexists. split; [exists [ONew 128 false]; do 2 eexists; exists 0; split; [apply valid_runb_ok; vm_compute; reflexivity|]; split; [vm_compute; reflexivity|reflexivity]|].
  split; vm_compute; reflexivity.
Qed.
Print Assumptions C27_store_straddle_refuted.

(** ** C28 *)
(** <<= moves towards lower indices and >>= towards higher ones, zeroes come in, for every shift count, and only inside
    the view. *)
Theorem C28_shifts st first last n : reachable st -> first <= last -> last <= s_sz st ->
  (exists st', view_shl first last n st = Ok st' /\ s_sz st' = s_sz st /\
     forall i, nth i (bits st') false = (if (first <=? i) && (i <? last) then (if i + n <? last then nth (i + n) (bits st) false else false) else nth i (bits st) false)) /\
  (exists st', view_shr first last n st = Ok st' /\ s_sz st' = s_sz st /\
     forall i, nth i (bits st') false = (if (first <=? i) && (i <? last) then (if first + n <=? i then nth (i - n) (bits st) false else false) else nth i (bits st) false)).
Proof.
  intros H H1 H2. reach H.
  assert (L : length (sub first last (bits st)) = last - first) by (apply sub_length; rewrite bits_length; assumption).
  split.
  - destruct (view_shift_ok _ _ shl_ok st n first last H H1 H2) as (st' & E1 & E2 & _ & E3). exists st'. split; [exact E1|]. split; [exact E2|]. intros i. rewrite E3.
    assert (LS : length (shl_spec n (sub first last (bits st))) = last - first) by (rewrite shl_length; assumption).
    rewrite splice_nth by (rewrite ?bits_length; lia). destruct ((first <=? i) && (i <? last)) eqn:E; [|reflexivity].
    rewrite shl_nth, sub_nth. destruct (Nat.ltb_spec (i + n) last), (Nat.ltb_spec (i - first + n) (last - first)); try (exfalso; lia); cbn [andb]; [|reflexivity]. f_equal. lia.
  - destruct (view_shift_ok _ _ shr_ok st n first last H H1 H2) as (st' & E1 & E2 & _ & E3). exists st'. split; [exact E1|]. split; [exact E2|]. intros i. rewrite E3.
    assert (LS : length (shr_spec n (sub first last (bits st))) = last - first) by (rewrite shr_length; assumption).
    rewrite splice_nth by (rewrite ?bits_length; lia). destruct ((first <=? i) && (i <? last)) eqn:E; [|reflexivity].
    rewrite shr_nth, sub_nth, L.
    destruct (Nat.leb_spec (first + n) i), (Nat.leb_spec n (i - first)), (Nat.ltb_spec (i - first) (last - first)), (Nat.ltb_spec (i - first - n) (last - first)); try (exfalso; lia); cbn [andb]; try reflexivity.
    f_equal. lia.
Qed.
Print Assumptions C28_shifts.
Example C28_ex : (exists st', view_shl 3 150 71 (mkS [0; 2 ^ 20; 0]%N 160) = Ok st' /\ nth 13 (bits st') false = true) /\
  exists st, reachable st /\ s_sz st = 160 /\ nth 84 (bits st) false = true.
Proof.
  split; [eexists; split; vm_compute; reflexivity|]. eexists. split; [exists [ONew 160 false; OSet 0 84 true]; do 2 eexists; exists 0; split; [apply valid_runb_ok; vm_compute; reflexivity|]; split; [vm_compute; reflexivity|reflexivity]|].
  split; vm_compute; reflexivity.
Qed.

(** ** C29 *)
Theorem C29_equality st1 st2 : reachable st1 -> reachable st2 ->
  exists b, vec_eq st1 st2 = Ok b /\ (b = true <-> s_sz st1 = s_sz st2 /\ bits st1 = bits st2).
Proof.
  intros H1 H2. reach H1. reach H2. destruct (vec_eq_ok st1 st2 H1 H2) as (b & Hb & Hiff). exists b. split; [assumption|].
  rewrite Hiff. split; [|tauto]. intros E. split; [|assumption]. rewrite <- !bits_length, E. reflexivity.
Qed.
Print Assumptions C29_equality.
Theorem C29_equal_hash st1 st2 : reachable st1 -> reachable st2 -> vec_eq st1 st2 = Ok true ->
  exists h, vec_hash st1 = Ok h /\ vec_hash st2 = Ok h.
Proof.
  intros H1 H2 E. destruct (C29_equality st1 st2 H1 H2) as (b & Hb & Hiff). rewrite E in Hb. injection Hb as <-.
  destruct Hiff as [Hiff _]. destruct (Hiff eq_refl) as [_ Eb]. rewrite (C23_nothing_beyond_size st1 st2 H1 H2 Eb).
  reach H2. destruct (vec_hash_total st2 H2) as [h Hh]. eauto.
Qed.
Print Assumptions C29_equal_hash.
(** the text determines the bits, for views of equal size *)
Lemma hex_char_inj a b : (a < 16)%N -> (b < 16)%N -> hex_char a = hex_char b -> a = b.
Proof.
  intros Ha Hb E. assert (F : forallb (fun i => forallb (fun j => (i =? j) || negb (N.eqb (hex_char (N.of_nat i)) (hex_char (N.of_nat j)))) (seq 0 16)) (seq 0 16) = true) by (vm_compute; reflexivity).
  rewrite forallb_forall in F. specialize (F (N.to_nat a) ltac:(apply in_seq; lia)). rewrite forallb_forall in F. specialize (F (N.to_nat b) ltac:(apply in_seq; lia)).
  rewrite !N2Nat.id, E, N.eqb_refl in F. destruct (Nat.eqb_spec (N.to_nat a) (N.to_nat b)); [lia|discriminate].
Qed.
Lemma hex_inj k : forall a b, (a < 16 ^ N.of_nat k)%N -> (b < 16 ^ N.of_nat k)%N -> hex k a = hex k b -> a = b.
Proof.
  induction k as [|k IH]; intros a b Ha Hb E; [change (16 ^ N.of_nat 0)%N with 1%N in *; lia|].
  replace (N.of_nat (S k)) with (N.succ (N.of_nat k)) in * by lia. rewrite N.pow_succ_r' in *. cbn [hex] in E. apply app_inj_tail in E. destruct E as [E1 E2].
  assert (a / 16 = b / 16)%N by (apply IH; [apply N.div_lt_upper_bound; lia|apply N.div_lt_upper_bound; lia|assumption]).
  assert (a mod 16 = b mod 16)%N by (apply hex_char_inj; [apply N.mod_lt; lia|apply N.mod_lt; lia|assumption]).
  rewrite (N.div_mod' a 16), (N.div_mod' b 16). congruence.
Qed.
Lemma string_inj l1 l2 : length l1 = length l2 -> string_spec l1 = string_spec l2 -> l1 = l2.
Proof.
  intros Hl E. apply value_inj; [assumption|]. destruct l1 as [|x l1], l2 as [|y l2]; try discriminate Hl; [reflexivity|].
  unfold string_spec in E. rewrite Hl in E. apply (f_equal (@tl N)), (f_equal (@tl N)) in E. cbn [tl] in E. revert E. apply hex_inj.
  all: eapply N.lt_le_trans; [apply value_lt|]; change 16%N with (2 ^ 4)%N; rewrite <- N.pow_mul_r; apply N.pow_le_mono_r; [lia|]; rewrite ?Hl; lia.
Qed.
Theorem C29_text_determines_bits st1 st2 f1 l1 f2 l2 s : reachable st1 -> reachable st2 ->
  f1 <= l1 -> l1 <= s_sz st1 -> f2 <= l2 -> l2 <= s_sz st2 -> l1 - f1 = l2 - f2 ->
  view_string st1 f1 l1 = Ok s -> view_string st2 f2 l2 = Ok s -> sub f1 l1 (bits st1) = sub f2 l2 (bits st2).
Proof.
  intros R1 R2 A1 A2 B1 B2 E. reach R1. reach R2. rewrite !view_string_ok by assumption. intros [= H1] [= H2]. apply string_inj; [|congruence].
  rewrite !sub_length by (rewrite bits_length; assumption). assumption.
Qed.
Print Assumptions C29_text_determines_bits.
(** the text is "<empty>" or "0x" and the value in hexadecimal, two digits per byte; the binary text is the bits, highest index first *)
Theorem C29_text st : reachable st ->
  view_string st 0 (s_sz st) = Ok (string_spec (bits st)) /\ vec_to_string st = Ok (map (fun b : bool => if b then 49 else 48)%N (rev (bits st))).
Proof.
  intros H. reach H. split; [rewrite view_string_ok by (assumption || lia); rewrite sub_whole; reflexivity|]. rewrite vec_to_string_ok by assumption. reflexivity.
Qed.
Print Assumptions C29_text.
Example C29_text_ex : exists st, reachable st /\ view_string st 0 (s_sz st) = Ok [48; 120; 49; 50; 51; 52]%N /\ s_sz st = 13.
Proof.
  eexists. split; [exists [ONew 13 false; OStore 0 0 13 0x1234%N]; do 2 eexists; exists 0; split; [apply valid_runb_ok; vm_compute; reflexivity|]; split; [vm_compute; reflexivity|reflexivity]|].
  split; vm_compute; reflexivity.
Qed.
(** contains: exact for operands of equal width *)
Theorem C23_contains_partial st ot first last ofirst olast : reachable st -> reachable ot ->
  first <= last -> last <= s_sz st -> ofirst <= olast -> olast <= s_sz ot -> olast - ofirst = last - first ->
  exists b, view_contains st first last ot ofirst olast = Ok b /\
    (b = true <-> forall i, i < last - first -> nth (ofirst + i) (bits ot) false = true -> nth (first + i) (bits st) false = true).
Proof.
  intros R1 R2 A1 A2 B1 B2 E. reach R1. reach R2. eexists. split; [apply view_contains_ok; assumption || lia|].
  assert (LS : length (sub first last (bits st)) = last - first) by (apply sub_length; rewrite bits_length; assumption).
  assert (LO : length (sub ofirst olast (bits ot)) = last - first) by (rewrite sub_length; [assumption|rewrite bits_length; assumption]).
  rewrite contains_spec_true, LS, LO. split; intros HA i Hi.
  - specialize (HA i Hi Hi). rewrite !sub_nth in HA. destruct (Nat.ltb_spec i (last - first)), (Nat.ltb_spec i (olast - ofirst)); try (exfalso; lia). exact HA.
  - intros _. rewrite !sub_nth. destruct (Nat.ltb_spec i (last - first)), (Nat.ltb_spec i (olast - ofirst)); try (exfalso; lia). cbn [andb]. auto.
Qed.
Print Assumptions C23_contains_partial.
(** Refuted: the operand may be narrower than the view (only a wider one is answered early), but then its end is read past. *)
Theorem C23_contains_narrower_refuted : exists st ot, reachable st /\ reachable ot /\ s_sz ot <= s_sz st /\ vec_contains st ot = UB.
Proof.
  do 2 eexists. split; [exists [ONew 128 true; ONew 64 true]; do 2 eexists; exists 0; split; [apply valid_runb_ok; vm_compute; reflexivity|]; split; [vm_compute; reflexivity|reflexivity]|].
  split; [exists [ONew 128 true; ONew 64 true]; do 2 eexists; exists 1; split; [apply valid_runb_ok; vm_compute; reflexivity|]; split; [vm_compute; reflexivity|reflexivity]|].
  split; [vm_compute; lia|]. vm_compute. reflexivity.
Qed.
Print Assumptions C23_contains_narrower_refuted.
