(** What each operation of one vector does: element access, erasure. *)
From stdpp Require Import gmap list infinite fin_map_dom.
From Coq Require Import NArith Lia ZifyBool ZifyNat ZifyN.
From Verif.Common Require Import Word.
From Verif.Vec Require Import Model Wp Ranges Segs Ops1 Ops2 Ops3.
Local Open Scope nat_scope.

Section Ops.
Context {V : Type} (tr : traits) (moved : V -> V).
Notation heap := (gmap nat (list (@cell V))).
Notation M := (@M V).
Implicit Types (mv : bool) (xs ys zs : list V) (hf h : heap) (rg : list vec) (E : heap -> list vec -> Prop) (A B C R : list (@cell V)) (a : @arg V) (v : vec).
Notation post A := (A -> heap -> list vec -> Prop).
Notation "x <- m ;; k" := (bind m (fun x => k)) (at level 100, m at next level, right associativity).
Notation "m ;;; k" := (bind m (fun _ => k)) (at level 100, right associativity).
Notation wft := (wft tr).
Notation fits := (fits tr).
Notation avail := (avail (V := V) tr).
Notation "'LV' xs" := (@Live V <$> (xs : list V)) (at level 30).
Notation St := (St (V := V) tr).
Notation argok := (argok (V := V)).

Notation resz := Ops2.resz.

Lemma wp_index r v xs i x (Q : post V) E hf h rg : rg !! r = Some v -> St v xs hf h -> xs !! i = Some x -> Q x h rg -> wp (index r i) Q E h rg.
Proof.
  intros Hr HS Hx HQ. unfold index. apply wp_bind. eapply wp_get; [eassumption|]. pose proof (St_sz _ _ _ _ HS) as Hsz. pose proof (St_le _ _ _ _ HS). pose proof (lookup_lt_Some _ _ _ Hx) as Hi.
  destruct (Nat.ltb_spec i (v_sz v)); [|lia]. apply wp_bind. destruct (St_blk _ _ _ _ _ HS) as (b & R & Hb & Hf & -> & HR & Hl); [lia|]. unfold blk. rewrite Hb. apply wp_ret.
  eapply wp_read; [|exact HQ]. apply (cell_live b [] xs R hf 0 eq_refl). assumption.
Qed.
Lemma wp_at r v xs i (Q : post (option V)) E hf h rg : rg !! r = Some v -> St v xs hf h -> Q (xs !! i) h rg -> wp (at_checked r i) Q E h rg.
Proof.
  intros Hr HS HQ. unfold at_checked. apply wp_bind. eapply wp_get; [eassumption|]. pose proof (St_sz _ _ _ _ HS) as Hsz. destruct (Nat.leb_spec (v_sz v) i).
  - apply wp_ret. rewrite lookup_ge_None_2 in HQ by lia. assumption.
  - destruct (lookup_lt_is_Some_2 xs i) as [x Hx]; [lia|]. apply wp_bind. eapply wp_index; [eassumption|eassumption|eassumption|]. apply wp_ret. rewrite Hx in HQ. assumption.
Qed.
Lemma wp_write r v xs i x (Q : post unit) E hf h rg : rg !! r = Some v -> St v xs hf h -> i < length xs -> (forall h', St v (<[i := x]> xs) hf h' -> Q tt h' rg) -> E h rg -> wp (write tr moved r i x) Q E h rg.
Proof.
  intros Hr HS Hi HQ HE. unfold write. apply wp_bind. eapply wp_get; [eassumption|]. pose proof (St_sz _ _ _ _ HS) as Hsz. pose proof (St_le _ _ _ _ HS). pose proof (St_cap _ _ _ _ HS) as Hm.
  destruct (Nat.ltb_spec i (v_sz v)); [|lia]. apply wp_bind. destruct (St_blk _ _ _ _ _ HS) as (b & R & Hb & Hf & -> & HR & Hl); [lia|]. unfold blk. rewrite Hb. apply wp_ret.
  destruct (lookup_lt_is_Some_2 xs i Hi) as [y Hy]. rewrite insert_take_drop in HQ by assumption. rewrite <- (take_drop_middle xs i y Hy) in HE |- *. rewrite fmap_app, <- app_assoc in *. cbn [app fmap list_fmap] in *.
  eapply (sg_assign tr moved); [rewrite fmap_length, take_length; lia|reflexivity| |exact HE]. apply HQ.
  change (Live x :: (LV drop (S i) xs) ++ R) with ((LV (x :: drop (S i) xs)) ++ R). rewrite app_assoc, <- fmap_app. apply St_mk; try assumption; rewrite app_length, take_length; cbn [length]; rewrite drop_length; lia.
Qed.

(** erase *)
Lemma erase_loop b xs i j (Q : post unit) E hf R rg : i < j -> j <= length xs ->
  (forall w, length w = j - i -> Q tt (<[b := LV (take i xs ++ drop j xs ++ w) ++ R]> hf) rg) ->
  (forall ys, length ys = length xs -> E (<[b := LV ys ++ R]> hf) rg) ->
  wp (for_up (length xs - j) 0 (fun k => assign_to tr moved (b, i + k) (Ref (b, j + k)) true)) Q E (<[b := LV xs ++ R]> hf) rg.
Proof.
  intros Hij Hj HQ HE. set (T := drop j xs). assert (LT : length T = length xs - j) by apply drop_length. assert (Lp : length (take i xs) = i) by (rewrite take_length; lia).
  eapply wp_mono; [apply (wp_for_up (length xs - j) 0 _ (fun k h' rg' => rg' = rg /\ exists w, length w = j - i /\ h' = <[b := LV (take i xs ++ take k T ++ w ++ drop k T) ++ R]> hf) E)| |].
  - intros k h1 rg1 _ Hk [-> (w & Lw & ->)]. destruct (lookup_lt_is_Some_2 T k) as [x Hx]; [lia|]. destruct w as [|z w]; [cbn [length] in Lw; lia|]. cbn [length] in Lw.
    assert (Lk : length (take k T) = k) by (rewrite take_length; lia).
    assert (HE1 : E (<[b := LV (take i xs ++ take k T ++ (z :: w) ++ drop k T) ++ R]> hf) rg). { apply HE. rewrite !app_length, drop_length. cbn [length]. lia. }
    rewrite (drop_S _ _ _ Hx) in HE1 |- *. rewrite (take_S_r _ _ _ Hx).
    replace (LV (take i xs ++ take k T ++ (z :: w) ++ x :: drop (S k) T) ++ R) with ((LV take i xs ++ LV take k T) ++ Live z :: LV w ++ Live x :: LV drop (S k) T ++ R) in HE1 |- * by (rewrite !fmap_app, !fmap_cons; cbn [app]; rewrite <- !app_assoc; cbn [app]; rewrite <- !app_assoc; reflexivity).
    eapply (sg_move_down tr moved); [rewrite app_length, !fmap_length; lia|rewrite fmap_length; lia| |exact HE1].
    intros y. split; [reflexivity|]. exists (w ++ [y]). split; [rewrite app_length; cbn [length]; lia|]. f_equal. rewrite !fmap_app. cbn [fmap list_fmap app]. rewrite <- !app_assoc. cbn [app]. rewrite <- ?app_assoc. reflexivity.
  - split; [reflexivity|]. exists (take (j - i) (drop i xs)). split; [rewrite take_length, drop_length; lia|]. cbn [take drop app]. f_equal. f_equal. f_equal. unfold T. replace (drop j xs) with (drop (j - i) (drop i xs)) by (rewrite drop_drop; f_equal; lia). rewrite take_0, drop_0. cbn [app]. rewrite !take_drop. reflexivity.
  - intros [] h' rg' [-> (w & Lw & ->)]. cbn [Nat.add]. rewrite (take_ge T), (drop_ge T), app_nil_r by lia. apply HQ. assumption.
  - auto.
Qed.
Lemma wp_erase r v xs i j (Q : post nat) E hf h rg : rg !! r = Some v -> St v xs hf h -> i <= j -> j <= length xs ->
  (forall h', let v' := resz v (length xs - (j - i)) in St v' (take i xs ++ drop j xs) hf h' -> Q i h' (<[r := v']> rg)) ->
  (forall ys h', length ys = length xs -> St v ys hf h' -> E h' rg) -> wp (erase tr moved r i j) Q E h rg.
Proof.
  intros Hr HS Hij Hj HQ HE. cbn zeta in HQ. unfold erase. apply wp_bind. eapply wp_get; [eassumption|]. pose proof (St_sz _ _ _ _ HS) as Hsz. pose proof (St_le _ _ _ _ HS). pose proof (St_cap _ _ _ _ HS) as Hm.
  replace ((i <=? j) && (j <=? v_sz v)) with true by (symmetry; apply andb_true_iff; rewrite !Nat.leb_le; lia). apply wp_bind.
  destruct (Nat.eqb_spec i j) as [->|Hne].
  - apply wp_skip, wp_ret. replace rg with (<[r := resz v (length xs - (j - j))]> rg); [apply HQ; rewrite take_drop; replace (resz v (length xs - (j - j))) with v; [exact HS|]|apply list_insert_id; rewrite Hr; f_equal];
      unfold Ops2.resz; replace (length xs - (j - j)) with (v_sz v) by lia; destruct v; reflexivity.
  - destruct (Nat.eqb_spec j (v_sz v)) as [->|Hj2].
    + eapply wp_destroy_range_e; [eassumption|eassumption|lia|]. intros h' HS'. apply wp_ret. replace (length xs - (v_sz v - i)) with i in HQ by lia. apply HQ. rewrite (drop_ge xs) by lia. rewrite app_nil_r. assumption.
    + apply wp_bind. destruct (St_blk _ _ _ _ _ HS) as (b & R & Hb & Hf & -> & HR & Hl); [lia|]. unfold blk. rewrite Hb. apply wp_ret.
      destruct (t_triv tr && t_std tr) eqn:Et.
      * assert (Et' : t_triv tr = true) by (apply andb_prop in Et as [? _]; assumption).
        assert (SPLIT : LV xs ++ R = LV take i xs ++ LV take (j - i) (drop i xs) ++ (LV drop j xs ++ R)).
        { rewrite !app_assoc, <- !fmap_app. f_equal. f_equal. replace (drop j xs) with (drop (j - i) (drop i xs)) by (rewrite drop_drop; f_equal; lia). rewrite <- app_assoc, !take_drop. reflexivity. }
        rewrite SPLIT. apply wp_bind. apply (sg_destroy_range tr b i (j - i) (LV take i xs)); [rewrite fmap_length, take_length; lia|rewrite take_length, drop_length; lia|]. intros B LB HB. apply wp_bind.
        set (T := drop j xs). assert (LT : length T = length xs - j) by apply drop_length.
        assert (MV : wp (memmove (V := V) b i b j (v_sz v - j)) (fun _ h' rg' => wp (set r (mkV (Some b) (v_sz v - (j - i)) (v_cap v))) (fun _ h2 rg2 => wp (ret i) Q E h2 rg2) E h' rg') E (<[b := LV take i xs ++ B ++ LV T ++ R]> hf) rg).
        { apply (wp_memmove b i b j (v_sz v - j) T); [lia| | | |].
          - eexists. rewrite lookup_insert. split; [reflexivity|]. rewrite !app_length, !fmap_length, take_length. lia.
          - eexists. rewrite lookup_insert. split; [reflexivity|]. rewrite !app_length, !fmap_length, take_length. lia.
          - rewrite (app_assoc (LV take i xs)). apply cell_live. rewrite app_length, fmap_length, take_length. lia.
          - intros h' Hh. rewrite <- (take_drop (length T) (B ++ LV T ++ R)) in Hh. apply seg_live in Hh; [|rewrite fmap_length, take_length; lia|rewrite take_length, !app_length, fmap_length; lia]. subst h'.
            eapply wp_set; [eassumption|]. apply wp_ret. rewrite Hsz, <- Hb. change (mkV (v_blk v) (length xs - (j - i)) (v_cap v)) with (resz v (length xs - (j - i))). apply HQ.
            rewrite app_assoc, <- fmap_app. apply St_mk; try assumption; cbn [Ops2.resz v_sz v_cap]; rewrite ?app_length, ?take_length, ?drop_length.
            + unfold T. rewrite drop_length. lia.
            + apply Forall_true. intros; left; assumption.
            + rewrite !app_length, fmap_length. unfold T. rewrite drop_length. lia. }
        destruct (Nat.leb_spec (v_sz v - j) (j - i)); [|exact MV]. unfold memcpy. rewrite Nat.eqb_refl. cbn [andb]. destruct (Nat.ltb_spec j (i + (v_sz v - j))); [lia|]. rewrite andb_false_r. exact MV.
      * apply wp_bind. rewrite Hsz. eapply erase_loop; [lia|assumption| |].
        -- intros w Lw. assert (HS2 : St v (take i xs ++ drop j xs ++ w) hf (<[b:=LV (take i xs ++ drop j xs ++ w) ++ R]> hf)).
           { apply St_mk; try assumption; rewrite !app_length, take_length, drop_length; lia. }
           eapply wp_destroy_range_e; [eassumption|exact HS2|rewrite !app_length, take_length, drop_length; lia|]. intros h' HS'. apply wp_ret. apply HQ. rewrite app_assoc in HS'. rewrite take_app_alt in HS' by (rewrite app_length, take_length, drop_length; lia). exact HS'.
        -- intros ys Ly. apply (HE ys); [assumption|]. apply St_mk; try assumption; lia.
Qed.

(** erase_if *)
Lemma wp_remove_loop b p rest : forall kept junk (Q : post nat) E hf R rg,
  (forall junk', Q (length (kept ++ List.filter (fun x => negb (p x)) rest)) (<[b := LV ((kept ++ List.filter (fun x => negb (p x)) rest) ++ junk') ++ R]> hf) rg \/ length (kept ++ junk ++ rest) <> length ((kept ++ List.filter (fun x => negb (p x)) rest) ++ junk')) ->
  (forall ys, length ys = length (kept ++ junk ++ rest) -> E (<[b := LV ys ++ R]> hf) rg) ->
  wp (remove_loop tr moved (length rest) (length kept + length junk) (length kept) b p) Q E (<[b := LV (kept ++ junk ++ rest) ++ R]> hf) rg.
Proof.
  induction rest as [|x rest IH]; intros kept junk Q E hf R rg HQ HE; cbn [remove_loop length].
  - apply wp_ret. cbn [List.filter] in HQ. rewrite !app_nil_r in *. destruct (HQ junk) as [H|H]; [exact H|contradiction].
  - apply wp_bind. eapply (wp_read _ x).
    { rewrite fmap_app, <- app_assoc, fmap_app, <- app_assoc. rewrite (app_assoc (LV kept)). pose proof (cell_live b (LV kept ++ LV junk) (x :: rest) R hf (length kept + length junk)) as Hc. rewrite <- (Nat.add_0_r (length kept + length junk)). apply Hc; [rewrite app_length, !fmap_length; lia|reflexivity]. }
    cbn [List.filter] in HQ. destruct (p x) eqn:Ep; cbn [negb] in HQ.
    + replace (S (length kept + length junk)) with (length kept + length (junk ++ [x])) by (rewrite app_length; cbn [length]; lia).
      replace (kept ++ junk ++ x :: rest) with (kept ++ (junk ++ [x]) ++ rest) in * by (rewrite <- app_assoc; reflexivity). apply IH; assumption.
    + assert (NEXT : forall junk1, length junk1 = length junk -> wp (remove_loop tr moved (length rest) (S (length kept + length junk)) (S (length kept)) b p) Q E (<[b := LV ((kept ++ [x]) ++ junk1 ++ rest) ++ R]> hf) rg).
      { intros junk1 L1. replace (S (length kept)) with (length (kept ++ [x])) by (rewrite app_length; cbn [length]; lia). replace (S (length kept + length junk)) with (length (kept ++ [x]) + length junk1) by (rewrite app_length; cbn [length]; lia).
        apply IH.
        - intros junk'. destruct (HQ junk') as [H|H].
          + left. rewrite <- (app_assoc kept [x]). exact H.
          + right. intros Hc. apply H. rewrite !app_length in *. cbn [length] in *. rewrite ?app_length in *. lia.
        - intros ys Ly. apply HE. rewrite Ly, !app_length. cbn [length]. lia. }
      apply wp_bind. destruct (Nat.eqb_spec (length kept + length junk) (length kept)) as [E0|E0].
      * assert (junk = []) as -> by (destruct junk; [reflexivity|cbn [length] in *; lia]). apply wp_skip. pose proof (NEXT [] eq_refl) as HN. rewrite <- app_assoc in HN. exact HN.
      * destruct junk as [|z junk]; [cbn [length] in E0; lia|].
        assert (HE1 := HE (kept ++ (z :: junk) ++ x :: rest) eq_refl).
        replace (LV (kept ++ (z :: junk) ++ x :: rest) ++ R) with (LV kept ++ Live z :: LV junk ++ Live x :: LV rest ++ R) in HE1 |- * by (rewrite !fmap_app, !fmap_cons; cbn [app]; rewrite <- !app_assoc; cbn [app]; rewrite <- !app_assoc; reflexivity).
        eapply (sg_move_down tr moved); [apply fmap_length|rewrite fmap_length; cbn [length]; lia| |exact HE1].
        intros y. pose proof (NEXT (junk ++ [y])) as HN. replace (LV ((kept ++ [x]) ++ (junk ++ [y]) ++ rest) ++ R) with (LV kept ++ Live x :: LV junk ++ Live y :: LV rest ++ R) in HN; [apply HN; rewrite app_length; cbn [length]; lia|].
        rewrite !fmap_app. cbn [fmap list_fmap app]. rewrite <- !app_assoc. cbn [app]. rewrite <- ?app_assoc. reflexivity.
Qed.
Lemma filter_length_le {X} (p : X -> bool) l : length (List.filter p l) <= length l.
Proof. induction l as [|x l IH]; cbn [List.filter length]; [lia|]. destruct (p x); cbn [length]; lia. Qed.
Lemma wp_erase_if r v xs p (Q : post nat) E hf h rg : rg !! r = Some v -> St v xs hf h ->
  (let ys := List.filter (fun x => negb (p x)) xs in forall h', St (resz v (length ys)) ys hf h' -> Q (length ys) h' (<[r := resz v (length ys)]> rg)) ->
  (forall ys h', length ys = length xs -> St v ys hf h' -> E h' rg) -> wp (erase_if tr moved r p) Q E h rg.
Proof.
  intros Hr HS HQ HE. cbn zeta in HQ. unfold erase_if. apply wp_bind. eapply wp_get; [eassumption|]. pose proof (St_sz _ _ _ _ HS) as Hsz. pose proof (St_le _ _ _ _ HS). pose proof (St_cap _ _ _ _ HS) as Hm. apply wp_bind.
  pose proof (filter_length_le (fun x => negb (p x)) xs) as Hfl. set (ys := List.filter (fun x => negb (p x)) xs) in *.
  assert (DONE : forall h1 junk, length (ys ++ junk) = length xs -> St v (ys ++ junk) hf h1 -> wp (erase tr moved r (length ys) (v_sz v)) Q E h1 rg).
  { intros h1 junk L1 HS1. eapply wp_erase; [eassumption|exact HS1|lia|lia| |].
    - intros h'. cbn zeta. rewrite L1, Hsz. replace (length xs - (length xs - length ys)) with (length ys) by lia. rewrite take_app_alt by reflexivity. rewrite (drop_ge (ys ++ junk)) by lia. rewrite app_nil_r. apply HQ.
    - intros zs h' Lz. apply HE. lia. }
  destruct (Nat.eq_dec (length xs) 0) as [E0|E0].
  - assert (xs = []) as -> by (destruct xs; [reflexivity|discriminate]). rewrite Hsz. cbn [length remove_loop]. apply wp_ret. change 0 with (length ys) at 1. cbn [length] in DONE. rewrite Hsz in DONE. apply (DONE h []); [reflexivity|exact HS].
  - destruct (St_blk _ _ _ _ _ HS) as (b & R & Hb & Hf & -> & HR & Hl); [lia|]. rewrite Hb. cbn [default]. rewrite Hsz.
    apply (wp_remove_loop b p xs [] []).
    + intros junk'. cbn [app]. fold ys. destruct (Nat.eq_dec (length xs) (length (ys ++ junk'))) as [E1|E1]; [left|right; assumption]. rewrite <- Hsz. apply (DONE _ junk'); [congruence|]. apply St_mk; try assumption; lia.
    + intros zs Lz. cbn [app] in Lz. apply (HE zs); [assumption|]. apply St_mk; try assumption; lia.
Qed.
End Ops.
