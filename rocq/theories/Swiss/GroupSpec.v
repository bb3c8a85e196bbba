(** What the table code relies on from a group implementation, stated on the window of control bytes
    with no reference to masks or SWAR arithmetic. *)
From stdpp Require Import list.
From Coq Require Import NArith ZArith.
From Verif.Swiss Require Import Group.
Local Open Scope Z_scope.

(** The control byte values the table ever stores: kEmpty, kDeleted, kSentinel or a 7-bit tag. *)
Definition valid_ctrl (c : Z) : Prop := c = -128 \/ c = -2 \/ c = -1 \/ 0 <= c < 128.

Record GroupOK (g : group) : Prop := {
  gok_width : g_width g = 8%nat \/ g_width g = 16%nat;
  (** Match finds every byte equal to the tag, and reports only positions of full slots *)
  gok_match_complete : forall l h i, length l = g_width g -> Forall valid_ctrl l -> 0 <= h < 128 ->
      l !! i = Some h -> In i (g_match g l h);
  gok_match_sound : forall l h i, length l = g_width g -> Forall valid_ctrl l -> 0 <= h < 128 ->
      In i (g_match g l h) -> exists c, l !! i = Some c /\ 0 <= c;
  gok_any_empty : forall l, length l = g_width g -> Forall valid_ctrl l ->
      (g_any_empty g l = true <-> exists i, l !! i = Some (-128));
  gok_empty_tz : forall l, length l = g_width g -> Forall valid_ctrl l -> g_any_empty g l = true ->
      l !! g_empty_tz g l = Some (-128) /\
      forall j, (j < g_empty_tz g l)%nat -> l !! j <> Some (-128);
  gok_empty_lz : forall l, length l = g_width g -> Forall valid_ctrl l -> g_any_empty g l = true ->
      (g_empty_lz g l < g_width g)%nat /\
      l !! (g_width g - 1 - g_empty_lz g l)%nat = Some (-128) /\
      forall j, (g_width g - 1 - g_empty_lz g l < j)%nat -> l !! j <> Some (-128);
  gok_nonfull_some : forall l i, length l = g_width g -> Forall valid_ctrl l ->
      g_first_nonfull g l = Some i ->
      (exists c, l !! i = Some c /\ c < -1) /\ forall j c, (j < i)%nat -> l !! j = Some c -> -1 <= c;
  gok_nonfull_none : forall l, length l = g_width g -> Forall valid_ctrl l ->
      g_first_nonfull g l = None -> forall j c, l !! j = Some c -> -1 <= c;
  gok_count_leading : forall l, length l = g_width g -> Forall valid_ctrl l ->
      (g_count_leading g l <= g_width g)%nat /\
      (forall j c, (j < g_count_leading g l)%nat -> l !! j = Some c -> c < -1) /\
      (forall c, l !! g_count_leading g l = Some c -> -1 <= c);
  gok_convert : forall l, length l = g_width g -> Forall valid_ctrl l ->
      g_convert g l = map (fun c => if c <? 0 then -128 else -2) l
}.
