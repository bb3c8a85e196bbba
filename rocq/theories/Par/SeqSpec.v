(** What a user sees of several parallel containers used from one thread: the maps of [MultiSpec].  The only
    difference is a copy assignment that runs out of memory: the destination then holds, for every key, either
    its own association or that of the source. *)
From Coq Require Import List NArith Bool Permutation.
From Verif.Swiss Require Import MapSpec MultiSpec.
Import ListNotations.

Section SeqSpec.
Context {K V : Type} (eqb : K -> K -> bool) (eeq : K * V -> K * V -> bool).
Notation state := (@MultiSpec.state K V).

Definition p_mstep (s : state) (o : mop K V) (r : mout K V) (s' : state) : Prop :=
  s_mstep eqb eeq s o r s' \/
  match o with
  | MCopy i j =>
      r = MThrew /\ exists c : K -> bool, (forall k k', eqb k k' = true -> c k = c k') /\
        s' = (upd (fst s) i (filter (fun e => c (fst e)) (mget (fst s) j) ++
                             filter (fun e => negb (c (fst e))) (mget (fst s) i)), snd s)
  | _ => False
  end.
Inductive p_mrun : state -> list (mop K V) -> list (mout K V) -> state -> Prop :=
| p_mrun_nil s : p_mrun s [] [] s
| p_mrun_cons s o r s1 os rs s2 : p_mstep s o r s1 -> p_mrun s1 os rs s2 -> p_mrun s (o :: os) (r :: rs) s2.
End SeqSpec.
