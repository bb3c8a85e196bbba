(** Property theorems C72: soas when calls throw. *)
From stdpp Require Import list list_numbers.
From Coq Require Import Lia Sorting.Permutation.
From Coq Require Import ZifyBool ZifyNat.
From Verif.Common Require Import Res.
From Verif.Misc Require Import Soa PropsSoa SoaThrow.
Open Scope nat_scope.
Open Scope res_scope.

Section Facts.
Context {V : Type} (moved : V -> V) (d : V) (k : nat).
Notation soa := (list (list V)).
Implicit Types (s : soa) (rs : list (list V)) (c : list V).

(** the first rows of a soa of k columns are rs *)
Definition reads s rs : Prop :=
  length s = k /\ Forall (fun r => length r = k) rs /\ forall j c i r, s !! j = Some c -> rs !! i = Some r -> c !! i = r !! j.
Definition rep s (x : rows V) : Prop := reads s (fst x) /\ (snd x = true -> Forall (fun c => length c = length (fst x)) s).

Lemma reads_len s rs j c : reads s rs -> s !! j = Some c -> length rs <= length c.
Proof.
  intros (Hs & Hr & H) Hc. destruct (decide (length rs = 0)); [lia|]. destruct (lookup_lt_is_Some_2 rs (length rs - 1)) as [r Er]; [lia|].
  assert (j < k) by (rewrite <- Hs; eapply lookup_lt_Some; eassumption). rewrite Forall_lookup in Hr. pose proof (Hr _ _ Er) as Hl.
  destruct (lookup_lt_is_Some_2 r j) as [x Ex]; [lia|]. pose proof (H j c _ r Hc Er) as E. rewrite Ex in E. apply lookup_lt_Some in E. lia.
Qed.
Lemma reads_row s rs i r : reads s rs -> rs !! i = Some r -> mapM (fun c => c !! i) s = Some r.
Proof.
  intros (Hs & Hr & H) Hi. apply mapM_Some. rewrite Forall_lookup in Hr. pose proof (Hr _ _ Hi) as Hl.
  apply Forall2_same_length_lookup. split; [lia|]. intros j c x Hc Hx. by rewrite (H j c i r).
Qed.
Lemma rows_of_reads s rs : length s = k -> rows_of s rs -> reads s rs.
Proof.
  intros Hs (Hne & Hf & Hrow). assert (Hm : forall i r, rs !! i = Some r -> Forall2 (fun c x => c !! i = Some x) s r).
  { intros i r Hi. assert (i < length rs) by (eapply lookup_lt_Some; eassumption). pose proof (Hrow i H) as E. unfold row in E. rewrite Hi in E.
    apply mapM_Some. destruct (mapM _ s); cbn in E; congruence. }
  split; [assumption|]. split.
  - apply Forall_lookup. intros i r Hi. rewrite <- Hs. symmetry. eapply Forall2_length. apply (Hm i r Hi).
  - intros j c i r Hc Hi. specialize (Hm i r Hi). destruct (Forall2_lookup_l _ _ _ _ _ Hm Hc) as (x & Hx & Ex). congruence.
Qed.
Lemma reads_rows_of s rs : 0 < k -> reads s rs -> Forall (fun c => length c = length rs) s -> rows_of s rs.
Proof.
  intros Hk Hr Hf. split; [|split; [assumption|]].
  - intros ->. destruct Hr as (Hs & _). cbn in Hs. lia.
  - intros i Hi. destruct (lookup_lt_is_Some_2 rs i Hi) as [r Er]. unfold row. by rewrite (reads_row s rs i r Hr Er), Er.
Qed.
(** appending to columns *)
Definition ext s s' : Prop := Forall2 (fun c c' => exists l, c' = c ++ l) s s'.
Lemma ext_refl s : ext s s.
Proof. unfold ext. induction s; constructor; [exists []; by rewrite app_nil_r|assumption]. Qed.
Lemma reads_ext s s' rs : ext s s' -> reads s rs -> reads s' rs.
Proof.
  intros He Hr. pose proof Hr as (Hs & Hl & H). split; [rewrite <- Hs; symmetry; eapply Forall2_length; exact He|]. split; [assumption|].
  intros j c' i r Hc' Hi. destruct (Forall2_lookup_r _ _ _ _ _ He Hc') as (c & Hc & l & ->). rewrite lookup_app_l; [by apply (H j)|].
  pose proof (reads_len s rs j c Hr Hc). apply lookup_lt_Some in Hi. lia.
Qed.
Lemma insert_t_ext s : forall xs n, ext s (fst (fst (insert_t s xs n))).
Proof.
  induction s as [|c s IH]; intros [|x xs] n; cbn; try apply ext_refl. destruct (tick n) as [n'|]; cbn; [|apply ext_refl].
  specialize (IH xs n'). destruct (insert_t s xs n') as [[s'' n''] t]. constructor; [by exists [x]|exact IH].
Qed.
Lemma insert_t_ok s : forall xs n, length xs = length s -> snd (insert_t s xs n) = false -> fst (fst (insert_t s xs n)) = soa_insert s xs.
Proof.
  induction s as [|c s IH]; intros [|x xs] n Hl; cbn; try done. destruct (tick n) as [n'|]; cbn; [|done].
  specialize (IH xs n' ltac:(cbn in Hl; lia)). destruct (insert_t s xs n') as [[s'' n''] t]. cbn in *. intros Ht. by rewrite IH.
Qed.
Lemma soa_insert_len s xs : length xs = length s -> length (soa_insert s xs) = length s.
Proof. intros H. unfold soa_insert. rewrite zip_with_length. lia. Qed.
Lemma insert_rep s rs xs : length xs = k -> rep s (rs, true) -> rep (soa_insert s xs) (rs ++ [xs], true).
Proof.
  intros Hx [(Hs & Hl & H) Hc]. cbn in *. specialize (Hc eq_refl). unfold soa_insert. split; [split; [|split]|intros _]; cbn.
  - rewrite zip_with_length. lia.
  - apply Forall_app. split; [assumption|]. by constructor.
  - intros j c' i r Hc' Hi. apply lookup_zip_with_Some in Hc'. destruct Hc' as (c & x & -> & Hj & Hxj).
    rewrite Forall_lookup in Hc. pose proof (Hc j c Hj) as Hlc. destruct (decide (i < length rs)).
    + rewrite lookup_app_l in Hi by lia. rewrite lookup_app_l by lia. by apply (H j).
    + rewrite lookup_app_r in Hi by lia. rewrite lookup_app_r by lia. rewrite Hlc. destruct (i - length rs) as [|q]; [|discriminate]. cbn in *. injection Hi as <-. done.
  - apply Forall_lookup. intros j c' Hc'. apply lookup_zip_with_Some in Hc'. destruct Hc' as (c & x & -> & Hj & Hxj).
    rewrite Forall_lookup in Hc. rewrite !app_length, (Hc j c Hj). done.
Qed.
(** resize *)
Lemma resize_small s sz n : Forall (fun c => sz <= length c) s -> resize_t d s sz n = (map (take sz) s, n, false).
Proof.
  induction 1 as [|c s Hc Hs IH]; cbn; [done|]. unfold resize_col. destruct (Nat.leb_spec sz (length c)); [|lia]. by rewrite IH.
Qed.
Lemma resize_grow s sz : forall n, Forall (fun c => length c < sz) s ->
  ext s (fst (fst (resize_t d s sz n))) /\
  (snd (resize_t d s sz n) = false -> fst (fst (resize_t d s sz n)) = map (fun c => c ++ repeat d (sz - length c)) s).
Proof.
  intros n H. revert n. induction H as [|c s Hc Hs IH]; intros n; cbn; [split; [constructor|done]|].
  unfold resize_col. destruct (Nat.leb_spec sz (length c)); [lia|]. destruct (tick n) as [n'|]; cbn; [|split; [apply ext_refl|done]].
  destruct (IH n') as [He Ht]. destruct (resize_t d s sz n') as [[s'' n''] t]. cbn in *. split; [constructor; [by eexists|exact He]|].
  intros Hf. by rewrite Ht.
Qed.
Lemma take_rep s rs b sz : sz <= length rs -> rep s (rs, b) -> rep (map (take sz) s) (take sz rs, true).
Proof.
  intros Hsz [Hr _]. pose proof Hr as (Hs & Hl & H). cbn in *. split; [split; [|split]|intros _]; cbn.
  - by rewrite map_length.
  - by apply Forall_take.
  - intros j c' i r Hc' Hi. rewrite list_lookup_fmap in Hc'. destruct (s !! j) as [c|] eqn:Hj; cbn in Hc'; [|discriminate]. injection Hc' as <-.
    assert (i < sz) by (apply lookup_lt_Some in Hi; rewrite take_length in Hi; lia). rewrite lookup_take in Hi by lia. rewrite lookup_take by lia. by apply (H j).
  - apply Forall_lookup. intros j c' Hc'. rewrite list_lookup_fmap in Hc'. destruct (s !! j) as [c|] eqn:Hj; cbn in Hc'; [|discriminate]. injection Hc' as <-.
    pose proof (reads_len s rs j c Hr Hj). rewrite !take_length. lia.
Qed.
Lemma grow_rep s rs sz : length rs < sz -> rep s (rs, true) ->
  rep (map (fun c => c ++ repeat d (sz - length c)) s) (rs ++ repeat (repeat d k) (sz - length rs), true).
Proof.
  intros Hsz [(Hs & Hl & H) Hc]. cbn in *. specialize (Hc eq_refl). rewrite Forall_lookup in Hc.
  assert (Hj : forall j c', map (fun c => c ++ repeat d (sz - length c)) s !! j = Some c' -> exists c, s !! j = Some c /\ c' = c ++ repeat d (sz - length c)).
  { intros j c' Hc'. rewrite list_lookup_fmap in Hc'. destruct (s !! j) as [c|]; cbn in Hc'; [|discriminate]. injection Hc' as <-. by eexists. }
  assert (Hrep : forall A (x : A) m i, i < m -> repeat x m !! i = Some x).
  { intros A x m. induction m as [|m IH]; intros [|i] Hi; cbn; try lia; [done|]. apply IH. lia. }
  split; [split; [|split]|intros _]; cbn.
  - by rewrite map_length.
  - apply Forall_app. split; [assumption|]. apply Forall_forall. intros r Hr. apply elem_of_list_In, repeat_spec in Hr. subst. apply repeat_length.
  - intros j c' i r Hc' Hi. destruct (Hj j c' Hc') as (c & Ec & ->). pose proof (Hc j c Ec) as Hlc. assert (j < k) by (rewrite <- Hs; eapply lookup_lt_Some; eassumption).
    destruct (decide (i < length rs)).
    + rewrite lookup_app_l in Hi by lia. rewrite lookup_app_l by lia. by apply (H j).
    + assert (i < length (rs ++ repeat (repeat d k) (sz - length rs))) by (eapply lookup_lt_Some; eassumption). rewrite app_length, repeat_length in *.
      rewrite lookup_app_r in Hi by lia. rewrite lookup_app_r by lia. rewrite Hrep in Hi by lia. injection Hi as <-. rewrite Hlc, !Hrep by lia. done.
  - apply Forall_lookup. intros j c' Hc'. destruct (Hj j c' Hc') as (c & Ec & ->). rewrite !app_length, !repeat_length, (Hc j c Ec). lia.
Qed.
Lemma clear_rep s : length s = k -> rep (soa_clear s) ([], true).
Proof.
  intros Hs. unfold soa_clear. split; [split; [by rewrite map_length|split; [constructor|discriminate]]|intros _]. cbn. apply Forall_forall. intros c Hc.
  apply elem_of_list_In, in_map_iff in Hc. by destruct Hc as (? & <- & _).
Qed.
Lemma copy_t_ok s : forall that junk n, length s = length that ->
  length (fst (fst (copy_t s that junk n))) = length s /\ (snd (copy_t s that junk n) = false -> fst (fst (copy_t s that junk n)) = that).
Proof.
  induction s as [|c s IH]; intros [|c' that] junk n Hl; cbn in *; try done; try lia. destruct (tick n) as [n'|]; cbn; [|done].
  destruct (IH that junk n') as [H1 H2]; [lia|]. destruct (copy_t s that junk n') as [[s'' n''] t]. cbn in *. split; [lia|]. intros Ht. by rewrite H2.
Qed.

(** if no move throws the loops are those of Soa.v *)
Context (nothrow : bool).
Lemma cycle_t_ok fuel : forall o i ci c done cur n c' done', cycle moved fuel o i ci c done cur = Ok (c', done') ->
  exists c2 done2 n2 t, cycle_t moved nothrow fuel o i ci c done cur n = Ok (c2, done2, n2, t) /\ length done2 = length done /\
    if t then nothrow = false /\ length c2 = length c else c2 = c' /\ done2 = done'.
Proof.
  induction fuel as [|f IH]; intros o i ci c done cur n c' done' H; cbn [cycle cycle_t] in *; [discriminate|].
  destruct (done !! cur); cbn [of_option rbind] in *; [|discriminate]. destruct (o !! cur) as [oc|]; cbn [of_option rbind] in *; [|discriminate].
  destruct (c !! cur) as [w|]; cbn [of_option rbind] in *; [|discriminate].
  assert (Hf : tick_move nothrow n = None -> nothrow = false) by (unfold tick_move; destruct nothrow; congruence). destruct (oc =? i).
  - injection H as <- <-. destruct (tick_move nothrow n); [eexists _, _, _, false|eexists _, _, _, true; split; [done|]; rewrite insert_length; by auto]. by rewrite insert_length.
  - destruct (c !! oc) as [v|]; cbn [of_option rbind] in *; [|discriminate]. destruct (tick_move nothrow n) as [n'|]; [|eexists _, _, _, true; split; [done|]; rewrite insert_length; by auto].
    destruct (o !! oc) as [oc'|]; cbn [of_option rbind] in *; [|discriminate].
    destruct (oc' =? oc); [injection H as <- <-; eexists _, _, _, false; by rewrite insert_length|].
    destruct (IH _ _ _ _ _ _ n' _ _ H) as (c2 & done2 & n2 & t & -> & Hl & Ht). exists c2, done2, n2, t. rewrite !insert_length in *. by auto.
Qed.
Lemma loop_t_ok o is : forall c done n c', reorder_loop moved o is c done = Ok c' ->
  exists c2 done2 n2 t, loop_t moved nothrow o is c done n = Ok (c2, done2, n2, t) /\ length done2 = length done /\
    if t then nothrow = false /\ length c2 = length c else c2 = c'.
Proof.
  induction is as [|i is IH]; intros c done n c' H; cbn [reorder_loop loop_t] in *; [injection H as <-; by eexists _, _, _, false|].
  destruct (done !! i) as [b|]; cbn [of_option rbind] in *; [|discriminate]. destruct b; [by apply IH|].
  destruct (c !! i) as [ci|]; cbn [of_option rbind] in *; [|discriminate].
  assert (Hf : tick_move nothrow n = None -> nothrow = false) by (unfold tick_move; destruct nothrow; congruence).
  destruct (tick_move nothrow n) as [n'|]; [|eexists _, _, _, true; by auto].
  destruct (cycle _ _ _ _ _ _ _ _) as [[c1 done1]| | | |] eqn:E; cbn [rbind] in H; try discriminate.
  destruct (cycle_t_ok _ _ _ _ _ _ _ n' _ _ E) as (c2 & done2 & n2 & t & -> & Hl & Ht). cbn [rbind].
  assert (Hlc : length c1 = length c).
  { clear -E. rewrite <- (insert_length c i (moved ci)). revert E. generalize (<[i := moved ci]> c) as c0. generalize i at 2 as cur. revert done. generalize (S (length o)) as fuel.
    induction fuel as [|f IH]; intros done cur c0 H; cbn [cycle] in H; [discriminate|]. destruct (done !! cur); cbn [of_option rbind] in *; [|discriminate].
    destruct (o !! cur) as [oc|]; cbn [of_option rbind] in *; [|discriminate]. destruct (c0 !! cur) as [w|]; cbn [of_option rbind] in *; [|discriminate].
    destruct (oc =? i); [injection H as <- _; by rewrite insert_length|]. destruct (c0 !! oc) as [v|]; cbn [of_option rbind] in *; [|discriminate].
    destruct (o !! oc) as [oc'|]; cbn [of_option rbind] in *; [|discriminate]. destruct (oc' =? oc); [injection H as <- _; by rewrite !insert_length|].
    apply IH in H. by rewrite !insert_length in H. }
  destruct t; [eexists _, _, _, true; rewrite insert_length in Ht; split; [done|]; split; [lia|]; tauto|]. destruct Ht as [-> ->].
  destruct (IH _ _ n2 _ H) as (c3 & done3 & n3 & t & -> & Hl' & Ht). exists c3, done3, n3, t. split; [done|]. split; [lia|]. destruct t; [split; [tauto|lia]|done].
Qed.
Lemma map_false (done : list bool) : map (fun _ => false) done = repeat false (length done).
Proof. induction done; cbn; congruence. Qed.
Lemma reorder_all_t_ok o s : forall done n s', length done = length o -> reorder_all moved o s = Ok s' ->
  exists s2 done2 n2 t, reorder_all_t moved nothrow o s done n = Ok (s2, done2, n2, t) /\
    if t then nothrow = false /\ length s2 = length s else s2 = s'.
Proof.
  induction s as [|c s IH]; intros done n s' Hd H; cbn [reorder_all reorder_all_t] in *; [injection H as <-; by eexists _, _, _, false|].
  destruct (reorder moved o c) as [c'| | | |] eqn:E; cbn [rbind] in H; try discriminate. destruct (reorder_all moved o s) as [s1| | | |] eqn:E1; cbn [rbind] in H; try discriminate.
  injection H as <-. unfold reorder_t. unfold reorder in E. rewrite map_false, Hd. destruct (loop_t_ok _ _ _ _ n _ E) as (c2 & done' & n2 & t & -> & Hl & Ht). cbn [rbind].
  destruct t; [eexists _, _, _, true; cbn; tauto|]. subst c2.
  rewrite repeat_length in Hl. destruct (IH done' n2 s1) as (s2 & done2 & n3 & t & -> & Ht); [lia|done|]. cbn [rbind]. eexists _, _, _, t. split; [done|].
  destruct t; [cbn; split; [tauto|lia]|by subst].
Qed.
Context (sorter : (nat -> nat -> bool) -> list nat -> nat -> list nat * nat * bool) (HS : sorter_ok (V:=V) sorter) (Hk : 0 < k).
Lemma resize_to_len {A} (x : A) sz l : length (resize_to x sz l) = sz.
Proof. unfold resize_to. rewrite app_length, take_length, repeat_length. lia. Qed.
Lemma size_rep s rs : rep s (rs, true) -> soa_size s = Ok (length rs).
Proof.
  intros [(Hs & _) Hc]. cbn in *. specialize (Hc eq_refl). unfold soa_size. destruct s as [|c s]; cbn in *; [lia|]. inversion Hc as [|? ? Hl ?]. by rewrite Hl.
Qed.
Lemma sort_t_ok s rs tmp col comp n : rep s (rs, true) -> col < k -> swo comp ->
  exists s' tmp' n' t, sort_t moved nothrow sorter s tmp col comp n = Ok (s', tmp', n', t) /\
    (if t then s' = s \/ nothrow = false /\ length s' = k else exists p rs', sorted_stably col comp rs p rs' /\ rep s' (rs', true)).
Proof using d HS Hk.
  intros Hr Hcol Hc. unfold sort_t. rewrite (size_rep s rs Hr). cbn [rbind]. pose proof Hr as [Hrd Hlen]. cbn in Hrd, Hlen. specialize (Hlen eq_refl).
  destruct (tick n) as [n1|]; [|eexists _, _, _, true; by auto]. destruct (tick n1) as [n2|]; [|eexists _, _, _, true; by auto].
  destruct Hrd as (Hs & Hrd). destruct (lookup_lt_is_Some_2 s col ltac:(lia)) as [c Ec]. rewrite Ec. cbn [of_option rbind].
  rewrite drop_ge by (rewrite resize_to_len; lia). rewrite app_nil_r. rewrite Forall_lookup in Hlen. pose proof (Hlen col c Ec) as Hlc.
  destruct (sorter (comp_wrapper comp c) (seq 0 (length rs)) n2) as [[o3 n3] t] eqn:Eo. destruct t; [eexists _, _, _, true; by auto|].
  pose proof (so_len _ HS (comp_wrapper comp c) (seq 0 (length rs)) n2) as Hol. rewrite Eo, seq_length in Hol. cbn in Hol.
  rewrite <- Hlc in Eo. pose proof (so_ok _ HS comp c n2 o3 n3 Hc Eo) as Hst.
  assert (Hro : rows_of s rs) by (apply reads_rows_of; [assumption|by split|by apply Forall_lookup]).
  destruct (sort_with_order moved s rs col c comp o3 Hro Ec Hst) as (s' & rs' & E & Hro' & Hss).
  destruct (reorder_all_t_ok o3 s (resize_to false (length rs) (sc_done tmp)) n3 s') as (s2 & done' & n4 & t & -> & Ht); [by rewrite resize_to_len|done|]. cbn [rbind].
  destruct t; [eexists _, _, _, true; split; [done|]; right; lia|]. subst s2. eexists _, _, _, false. split; [done|]. exists o3, rs'. split; [done|].
  assert (Hs' : length s' = k).
  { rewrite <- Hs. clear -E. revert s' E. induction s as [|c s IH]; intros s' E; cbn in E; [by injection E as <-|]. destruct (reorder moved o3 c); try discriminate.
    cbn in E. destruct (reorder_all moved o3 s) as [s1| | | |]; try discriminate. cbn in E. injection E as <-. cbn. f_equal. by apply IH. }
  split; cbn; [by apply rows_of_reads|]. intros _. apply Hro'.
Qed.

Lemma lookup_rep (st : list soa) (m : list (rows V)) i x : Forall2 rep st m -> m !! i = Some x -> exists s, st !! i = Some s /\ rep s x.
Proof. intros H Hi. destruct (Forall2_lookup_r _ _ _ _ _ H Hi) as (s & ? & ?). by exists s. Qed.
Lemma lookup_any (st : list soa) (m : list (rows V)) i : Forall2 rep st m -> i < length m -> exists s x, st !! i = Some s /\ m !! i = Some x /\ rep s x.
Proof. intros H Hi. destruct (lookup_lt_is_Some_2 m i Hi) as [x Hx]. destruct (lookup_rep st m i x H Hx) as (s & ? & ?). by exists s, x. Qed.
Lemma exec_ok (st : list soa) tmp m o n : Forall2 rep st m -> pre k m o ->
  exists st' tmp' r m', exec moved d nothrow sorter st tmp o n = Ok (st', tmp', r) /\ s_step k d nothrow m o r m' /\ Forall2 rep st' m'.
Proof using d HS Hk.
  intros H Hp. destruct o as [i xs|i sz|i|i sz|i|i q|i cols q|i col comp|i j junk|i j]; cbn [pre exec] in *.
  - destruct Hp as (Hx & rs & Hi). destruct (lookup_rep st m i _ H Hi) as (s & -> & Hr). cbn [of_option rbind].
    pose proof Hr as [Hrd _]. cbn in Hrd. pose proof (insert_t_ext s xs n) as He. pose proof (insert_t_ok s xs n ltac:(destruct Hrd; lia)) as Hok.
    destruct (insert_t s xs n) as [[s' n'] t]. cbn in He, Hok. destruct t; (eexists _, _, _, _; split; [reflexivity|]); cbn [done_or].
    + split; [by eapply S_ins_t|]. apply Forall2_insert; [assumption|]. split; [by eapply reads_ext|done].
    + split; [by eapply S_ins|]. apply Forall2_insert; [assumption|]. rewrite Hok by done. by apply insert_rep.
  - destruct Hp as (rs & b & Hi & Hb). destruct (lookup_rep st m i _ H Hi) as (s & -> & Hr). cbn [of_option rbind]. destruct (decide (sz <= length rs)) as [Hle|Hgt].
    + rewrite resize_small. 2:{ apply Forall_lookup. intros j c Hj. destruct Hr as [Hr _]. pose proof (reads_len s rs j c Hr Hj). lia. }
      eexists _, _, _, _. split; [reflexivity|]. cbn [done_or]. split; [by eapply S_resz|]. apply Forall2_insert; [assumption|].
      replace (sz - length rs) with 0 by lia. cbn [repeat]. rewrite app_nil_r. eapply take_rep; eassumption.
    + destruct b; [|specialize (Hb eq_refl); lia]. pose proof Hr as [Hrd Hlen]. cbn in Hrd, Hlen. specialize (Hlen eq_refl).
      destruct (resize_grow s sz n) as [He Hok]. { eapply Forall_impl; [exact Hlen|]. cbn. intros; lia. }
      destruct (resize_t d s sz n) as [[s' n'] t]. cbn in He, Hok. destruct t; (eexists _, _, _, _; split; [reflexivity|]); cbn [done_or].
      * split; [eapply S_resz_t; [eassumption|lia]|]. apply Forall2_insert; [assumption|]. split; [by eapply reads_ext|done].
      * split; [by eapply S_resz|]. apply Forall2_insert; [assumption|]. rewrite Hok by done. rewrite take_ge by lia. apply grow_rep; [lia|assumption].
  - destruct (lookup_any st m i H Hp) as (s & x & -> & _ & [(Hs & _) _]). cbn [of_option rbind]. eexists _, _, _, _. split; [reflexivity|].
    split; [apply S_clr|]. apply Forall2_insert; [assumption|]. by apply clear_rep.
  - destruct (lookup_any st m i H Hp) as (s & x & -> & _ & _). cbn [of_option rbind]. destruct (reserve_t s n) as [n' t].
    eexists _, _, _, _. split; [reflexivity|]. split; [apply S_rsv; destruct t; auto|assumption].
  - destruct Hp as (rs & Hi). destruct (lookup_rep st m i _ H Hi) as (s & -> & Hr). cbn [of_option rbind]. rewrite (size_rep s rs Hr). cbn [rbind].
    eexists _, _, _, _. split; [reflexivity|]. split; [by eapply S_siz|assumption].
  - destruct Hp as (rs & b & Hi & Hq). destruct (lookup_rep st m i _ H Hi) as (s & -> & [Hr _]). cbn in Hr. cbn [of_option rbind].
    destruct (lookup_lt_is_Some_2 rs q Hq) as [x Hx]. unfold row. rewrite (reads_row s rs q x Hr Hx). cbn [of_option rbind].
    eexists _, _, _, _. split; [reflexivity|]. split; [by eapply S_get|assumption].
  - destruct Hp as (Hcols & rs & b & Hi & Hq). destruct (lookup_rep st m i _ H Hi) as (s & -> & [Hr _]). cbn in Hr. cbn [of_option rbind].
    destruct (lookup_lt_is_Some_2 rs q Hq) as [x Hx]. pose proof Hr as (Hs & Hl & Hv). rewrite Forall_lookup in Hl. pose proof (Hl _ _ Hx) as Hlx.
    assert (exists y : list V, mapM (fun j => x !! j) cols = Some y /\ mapM (fun j => s !! j ≫= fun l => l !! q) cols = Some y) as (y & Hy & ->).
    { clear -Hcols Hx Hlx Hs Hv. induction Hcols as [|c cols Hc _ (y & IH1 & IH2)]; [by exists []|]. destruct (lookup_lt_is_Some_2 x c ltac:(lia)) as [v Ev].
      destruct (lookup_lt_is_Some_2 s c ltac:(lia)) as [l El]. exists (v :: y). cbn. rewrite Ev, El. cbn. rewrite (Hv c l q x El Hx), Ev. cbn. by rewrite IH1, IH2. }
    cbn [of_option rbind]. eexists _, _, _, _. split; [reflexivity|]. split; [by eapply S_vw|assumption].
  - destruct Hp as (Hcol & Hc & rs & Hi). destruct (lookup_rep st m i _ H Hi) as (s & Es & Hr). rewrite Es. cbn [of_option rbind].
    destruct (sort_t_ok s rs tmp col comp n Hr Hcol Hc) as (s' & tmp' & n' & t & -> & Ht). cbn [rbind]. destruct t.
    + destruct Ht as [->|[Hn Hl]]; (eexists _, _, _, _; split; [reflexivity|]).
      * split; [apply S_sort_t|]. rewrite list_insert_id; assumption.
      * split; [by apply S_sort_m|]. apply Forall2_insert; [assumption|]. split; [split; [cbn; lia|split; [constructor|discriminate]]|done].
    + destruct Ht as (p & rs' & Hss & Hr'). eexists _, _, _, _. split; [reflexivity|]. split; [by eapply S_sort|]. by apply Forall2_insert.
  - destruct Hp as (_ & Hi & Hj). destruct (lookup_any st m i H Hi) as (s & x & -> & _ & [(Hs & _) _]). destruct (lookup_any st m j H Hj) as (s2 & x2 & -> & Hx2 & Hr2).
    pose proof Hr2 as [(Hs2 & _) _]. cbn [of_option rbind]. destruct (copy_t_ok s s2 junk n ltac:(lia)) as [Hl Hok]. destruct (copy_t s s2 junk n) as [[s' n'] t]. cbn in Hl, Hok.
    destruct t; (eexists _, _, _, _; split; [reflexivity|]); cbn [done_or].
    + split; [apply S_cpy_t|]. apply Forall2_insert; [assumption|]. split; [split; [cbn; lia|split; [constructor|discriminate]]|done].
    + split; [by eapply S_cpy|]. apply Forall2_insert; [assumption|]. by rewrite Hok.
  - destruct Hp as (_ & Hi & Hj). destruct (lookup_any st m i H Hi) as (s & x & -> & _ & _). destruct (lookup_any st m j H Hj) as (s2 & x2 & -> & Hx2 & Hr2).
    cbn [of_option rbind]. eexists _, _, _, _. split; [reflexivity|]. split; [by eapply S_mov|]. apply Forall2_insert; [|assumption]. apply Forall2_insert; [assumption|].
    apply clear_rep. by destruct Hr2 as [(? & _) _].
Qed.
Lemma run_ok p : forall (st : list soa) tmp m b, Forall2 rep st m -> well_used k d nothrow m p ->
  exists st' tmp' ys m', run moved d nothrow sorter st tmp p b = Ok (st', tmp', ys) /\ s_run k d nothrow m p ys m' /\ Forall2 rep st' m'.
Proof using d HS Hk.
  induction p as [|o c IH]; intros st tmp m b H Hp; cbn [run well_used] in *; [eexists _, _, _, _; split; [reflexivity|]; split; [constructor|assumption]|].
  destruct Hp as [Ho Hc]. destruct (exec_ok st tmp m o (b 0) H Ho) as (st1 & tmp1 & r & m1 & -> & Hst & H1). cbn [rbind].
  destruct (IH r st1 tmp1 m1 (fun i => b (S i)) H1 (Hc r m1 Hst)) as (st2 & tmp2 & rs & m2 & -> & Hrun & H2). cbn [rbind].
  eexists _, _, _, _. split; [reflexivity|]. split; [by econstructor|assumption].
Qed.
End Facts.

(** Any program over [a] soas of k columns, which are empty at first and share the scratch memory of sort_by_field, whatever that holds, with
    any call failing at any point: as long as the program uses a soa on which a call threw only as [pre] says, every call has a result, and
    the results are those of lists of rows. *)
Theorem C72_programs_partial : forall (V : Type) (moved : V -> V) (d : V) (nothrow : bool) (k a : nat)
    (sorter : (nat -> nat -> bool) -> list nat -> nat -> list nat * nat * bool) (tmp : scratch) (p : prog V) (b : nat -> nat),
  0 < k -> sorter_ok (V:=V) sorter -> well_used k d nothrow (repeat ([], true) a) p ->
  exists st tmp' rs m, run moved d nothrow sorter (repeat (repeat [] k) a) tmp p b = Ok (st, tmp', rs) /\ s_run k d nothrow (repeat ([], true) a) p rs m.
Proof.
  intros V moved d nothrow k a sorter tmp p b Hk HS Hp.
  destruct (run_ok moved d k nothrow sorter HS Hk p (repeat (repeat [] k) a) tmp (repeat ([], true) a) b) as (st & tmp' & rs & m & H & Hr & _); [|assumption|by eexists _, _, _, _].
  clear -k. induction a as [|a IH]; cbn [repeat]; constructor; [|assumption]. split; cbn.
  - split; [apply repeat_length|]. split; [constructor|discriminate].
  - intros _. apply Forall_forall. intros c Hc. apply elem_of_list_In, repeat_spec in Hc. by subst.
Qed.
Print Assumptions C72_programs_partial.

(** A program of two columns: the second insert throws at its second column, the program then cuts the soa down to the row that it had; the
    sort is given a comparator that throws at its first call, and is done once more. *)
Definition seq_prog {V} (os : list (sop V)) : prog V := fold_right (fun o p => Do o (fun _ => p)) Stop os.
Definition no_fault (i : nat) : nat := 1000.
Definition fault_at (j n : nat) (i : nat) : nat := if i =? j then n else 1000.
Example C72_case : well_used 2 0 true (repeat ([], true) 1) (Do (Ins 0 [3; 30]) (fun r => match r with Done => Do (Ins 0 [2; 20]) (fun r => match r with
    | Done => Do (Sort 0 0 Nat.ltb) (fun _ => seq_prog [Get 0 0; Get 0 1])
    | _ => seq_prog [Get 0 0; Resz 0 1; Siz 0] end) | _ => Stop end)) /\
  rmap snd (run (fun _ => 99) 0 true insertion_sorter [[[]; []]] (mkScratch [7] [true]) (seq_prog [Ins 0 [3; 30]; Ins 0 [2; 20]; Get 0 0; Resz 0 1; Siz 0]) (fault_at 1 1)) =
    Ok [Done; Threw; Row [3; 30]; Done; Num 1] /\
  rmap snd (run (fun _ => 99) 0 true insertion_sorter [[[]; []]] (mkScratch [7] [true]) (seq_prog [Ins 0 [3; 30]; Ins 0 [2; 20]; Sort 0 0 Nat.ltb; Get 0 0; Get 0 1]) (fault_at 2 2)) =
    Ok [Done; Done; Threw; Row [3; 30]; Row [2; 20]] /\
  rmap snd (run (fun _ => 99) 0 true insertion_sorter [[[]; []]] (mkScratch [7] [true]) (seq_prog [Ins 0 [3; 30]; Ins 0 [2; 20]; Sort 0 0 Nat.ltb; Get 0 0; Get 0 1]) no_fault) =
    Ok [Done; Done; Done; Row [2; 20]; Row [3; 30]].
Proof.
  split; [|split; [|split]; vm_compute; reflexivity].
  cbn [well_used repeat]. split; [split; [reflexivity|by eexists]|]. intros r m' H. inversion H as [? ? ? rs E|? ? ? rs E| | | | | | | | | | | | |]; subst; cbn in E; injection E as <-; cbn [well_used]; [|exact I].
  cbn. split; [split; [reflexivity|by eexists]|]. clear H. intros r m' H. inversion H as [? ? ? rs E|? ? ? rs E| | | | | | | | | | | | |]; subst; cbn in E; injection E as <-.
  - cbn. split; [split; [lia|split; [apply soa_swo|by eexists]]|]. clear H. intros r m' H.
    assert (exists rs, m' = [(rs, true)] /\ length rs = 2) as (rs & -> & Hl).
    { inversion H as [| | | | | | | | |? ? ? ? ? ? ? E (_ & Hl & _)| |? ? ? ? Hn| | |]; subst; [cbn in E; injection E as <-; eexists; split; [reflexivity|exact Hl]|by eexists|discriminate]. }
    split; [exists rs, true; split; [reflexivity|lia]|]. intros r1 m1 H1. inversion H1; subst. split; [exists rs, true; split; [reflexivity|lia]|]. done.
  - cbn. split; [exists [[3; 30]], false; split; [reflexivity|cbn; lia]|]. clear H. intros r m' H. inversion H; subst.
    split; [exists [[3; 30]], false; split; [reflexivity|cbn; lia]|]. clear H. intros r1 m1 H1.
    inversion H1 as [| |? ? ? ? ? E|? ? ? ? E| | | | | | | | | | |]; subst; cbn in E; injection E as <-; [|discriminate].
    split; [by eexists|done].
Qed.

(** Without that care: an insert that threw has made the columns unequal.  size() counts a row that cannot be read, and later inserts fill the
    gap: a[1] is then a row that was never inserted. *)
Theorem C72_insert_strong_refuted : exists (os : list (sop nat)) (b : nat -> nat) (tmp : scratch),
  Forall (fun o => match o with Ins _ xs => length xs = 2 | _ => True end) os /\
  rmap snd (run (fun _ => 99) 0 true insertion_sorter [[[]; []]] tmp (seq_prog os) b) = Ok [Done; Threw; Num 2; Done; Num 3; Row [2; 30]] /\
  ~ In (Ins 0 [2; 30]) os /\
  run (fun _ => 99) 0 true insertion_sorter [[[]; []]] tmp (seq_prog (firstn 3 os ++ [Get 0 1])) b = UB.
Proof.
  exists [Ins 0 [1; 10]; Ins 0 [2; 20]; Siz 0; Ins 0 [3; 30]; Siz 0; Get 0 1], (fault_at 1 1), (mkScratch [] []).
  split; [repeat constructor|]. split; [vm_compute; reflexivity|]. split; [|vm_compute; reflexivity].
  cbn. intros H. repeat destruct H as [H|H]; congruence.
Qed.
Print Assumptions C72_insert_strong_refuted.

(** A sort by column 1 of elements whose moves can throw: a value is lost, and there are rows that were never inserted. *)
Theorem C72_sort_moves_refuted : exists (st : list (list (list nat))) (rs : list (list nat)) (tmp : scratch) (n : nat) (s' : list (list nat)) (rs' : list (list nat)) (tmp' : scratch),
  (exists s, st = [s] /\ rows_of s rs) /\
  exec (fun _ => 99) 0 false insertion_sorter st tmp (Sort 0 1 Nat.ltb) n = Ok ([s'], tmp', Threw) /\ rows_of s' rs' /\
  In [1; 30] rs /\ ~ In 30 (concat rs') /\ In [1; 99] rs' /\ ~ In [1; 99] rs.
Proof.
  exists [[[1; 2; 3]; [30; 20; 10]]], [[1; 30]; [2; 20]; [3; 10]], (mkScratch [] []), 11, [[3; 2; 1]; [10; 20; 99]], [[3; 10]; [2; 20]; [1; 99]].
  eexists. split; [eexists; split; [reflexivity|]|split; [vm_compute; reflexivity|split]].
  1, 2: split; [discriminate|]; split; [repeat constructor|]; cbn; intros i Hi; do 3 (destruct i as [|i]; [reflexivity|]); lia.
  cbn. repeat split; try tauto; intros H; repeat destruct H as [H|H]; congruence.
Qed.
Print Assumptions C72_sort_moves_refuted.

(** An assignment that throws leaves the first columns of one soa with the last ones of the other. *)
Theorem C72_copy_refuted : exists (s1 s2 : list (list nat)) (rs1 rs2 : list (list nat)) (tmp : scratch) (n : nat) (s' rs' : list (list nat)) (junk : list nat),
  rows_of s1 rs1 /\ rows_of s2 rs2 /\
  exec (fun _ => 99) 0 true insertion_sorter [s1; s2] tmp (Cpy 0 1 junk) n = Ok ([s'; s2], tmp, Threw) /\ rows_of s' rs' /\
  forall r, In r rs' -> ~ In r rs1 /\ ~ In r rs2.
Proof.
  exists [[1; 2]; [10; 20]; [100; 200]], [[3; 4]; [30; 40]; [300; 400]], [[1; 10; 100]; [2; 20; 200]], [[3; 30; 300]; [4; 40; 400]], (mkScratch [] []), 1,
    [[3; 4]; [10; 20]; [100; 200]], [[3; 10; 100]; [4; 20; 200]], [10; 20].
  assert (Hr : forall a b c a' b' c' : nat, rows_of [[a; a']; [b; b']; [c; c']] [[a; b; c]; [a'; b'; c']]).
  { intros. split; [discriminate|]. split; [repeat constructor|]. cbn. intros i Hi. do 2 (destruct i as [|i]; [reflexivity|]). lia. }
  split; [apply Hr|]. split; [apply Hr|]. split; [vm_compute; reflexivity|]. split; [apply Hr|].
  intros r [<-|[<-|[]]]; split; cbn; intros H; repeat destruct H as [H|H]; congruence.
Qed.
Print Assumptions C72_copy_refuted.
