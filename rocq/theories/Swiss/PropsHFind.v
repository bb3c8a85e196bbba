(** C68: lookups in the hash containers with a key of another type, through a transparent hash function and equality. *)
From Coq Require Import ZArith NArith List Bool Arith Lia Permutation.
From stdpp Require Import list.
From Verif.Common Require Import Word Res.
From Verif.Swiss Require Import Group GroupSpec GroupProof Model Probe ProbeProof Inv TableInv Resize Ops MapSpec History PropsTable HFind.
Import ListNotations.
Local Open Scope nat_scope.
Local Open Scope res_scope.

(** In every table that a program can reach: find(q) gives the element that equals q if there is one, and there is at most one; otherwise
    end(), even if q equals no key at all; the search terminates.  erase(q) removes that element and no other. *)
Theorem C68_lookup : forall (K V Q : Type) (hash : K -> N) (eqb : K -> K -> bool) (hashQ : Q -> N) (eqQ : Q -> K -> bool) (E : env) (t : table K V) (q : Q),
  real_env E -> KeyOK hash eqb -> matches hash eqb hashQ eqQ q -> reachable hash eqb E t ->
  (exists i e t', t_slots t !! i = Some (Some e) /\ eqQ q (fst e) = true /\
     (forall j e', t_slots t !! j = Some (Some e') -> eqQ q (fst e') = true -> j = i) /\
     hfind_key hashQ eqQ E t q = Ok (Some i) /\ hcount_key hashQ eqQ E t q = Ok 1 /\
     herase_key hashQ eqQ E t q = Ok (Some e, t') /\ t_slots t' = <[i := None]> (t_slots t) /\ t_size t = S (t_size t') /\ t_cap t' = t_cap t) \/
  ((forall j e', t_slots t !! j = Some (Some e') -> eqQ q (fst e') = false) /\
     hfind_key hashQ eqQ E t q = Ok None /\ hcount_key hashQ eqQ E t q = Ok 0 /\ herase_key hashQ eqQ E t q = Ok (None, t)).
Proof.
  intros K V Q hash eqb hashQ eqQ E t q HR HK Hq Ht. pose proof (real_env_ok E HR) as HE. pose proof (reachable_good hash eqb E HE HK t Ht) as Hg.
  destruct (hpresent_or_absent eqQ q t) as [(i & e & Hs & He)|Ha].
  - left. assert (Hk : eqb (fst e) (fst e) = true) by apply (ko_refl _ _ HK).
    destruct (erase_key_present hash eqb E HE HK t (fst e) i e Hg Hs Hk) as (t' & Her & _ & Hsl & Hcap & Hsz & _). exists i, e, t'.
    assert (Hf : hfind_key hashQ eqQ E t q = Ok (Some i)) by (rewrite (hfind_ext hash eqb hashQ eqQ E q Hq t _ He); apply (good_find_present hash eqb E HE HK t (fst e) i e Hg Hs Hk)).
    split; [exact Hs|]. split; [exact He|]. split.
    { intros j e' Hj He'. rewrite (mq_eq _ _ _ _ _ Hq _ _ He) in He'. pose proof (good_find_present hash eqb E HE HK t (fst e) j e' Hg Hj He') as H1.
      rewrite (good_find_present hash eqb E HE HK t (fst e) i e Hg Hs Hk) in H1. congruence. }
    split; [exact Hf|]. split; [unfold hcount_key; rewrite Hf; reflexivity|]. rewrite (herase_ext hash eqb hashQ eqQ E q Hq t _ He). auto.
  - right. assert (Hf : hfind_key hashQ eqQ E t q = Ok None) by (apply (hfind_none hash eqb hashQ eqQ E HE HK q t Hg Ha)).
    split; [intros j e' Hj; apply Ha; apply elems_in; eauto|]. split; [exact Hf|]. unfold hcount_key, herase_key. rewrite Hf. split; reflexivity.
Qed.
Print Assumptions C68_lookup.

(** A key that equals some key k (stored or not) behaves as k does in every call; try_emplace(q, v) with a key
    from which an equal key is constructed do what they do with the constructed key. *)
Theorem C68_same_as_key : forall (K V Q : Type) (hash : K -> N) (eqb : K -> K -> bool) (hashQ : Q -> N) (eqQ : Q -> K -> bool) (E : env) (t : table K V) (q : Q) (k : K) (v : V) (mk : Q -> K),
  matches hash eqb hashQ eqQ q -> eqQ q k = true ->
  hfind_key hashQ eqQ E t q = find_key hash eqb E t k /\ herase_key hashQ eqQ E t q = erase_key hash eqb E t k /\
  (mk q = k -> htry_emplace hash hashQ eqQ E mk t q v = emplace hash eqb E t k v).
Proof.
  intros K V Q hash eqb hashQ eqQ E t q k v mk Hq Hk. split; [apply (hfind_ext hash eqb); assumption|]. split; [apply (herase_ext hash eqb); assumption|].
  intros <-. apply (htry_emplace_ext hash eqb); assumption.
Qed.
Print Assumptions C68_same_as_key.

(** the functors have to agree: a transparent hash that differs from the hash of an equal key loses the element *)
Theorem C68_hashes_must_agree : exists (os : list (op N N)) t rs (hashQ : N -> N) (k : N),
  Forall (op_ok ex_env) os /\ run ex_hash N.eqb ex_env empty_table os = Ok (t, rs) /\
  find_key ex_hash N.eqb ex_env t k <> Ok None /\ hfind_key hashQ N.eqb ex_env t k = Ok None.
Proof.
  exists (ins (nums 0 5)). do 2 eexists. exists (fun _ => 5%N), 3%N. split; [repeat constructor|]. split; [vm_compute; reflexivity|]. split; [vm_compute; congruence|vm_compute; reflexivity].
Qed.
Print Assumptions C68_hashes_must_agree.

(** strings of digits for numbers: numbers below 10 in the table, characters '0'..'9' (48..57) as the other type *)
Definition char_hash (c : Z) : N := ex_hash (Z.to_N (c - 48)).
Definition char_eq (c : Z) (k : N) : bool := (Z.of_N k =? c - 48)%Z.
Example C68_example : matches ex_hash N.eqb char_hash char_eq 51%Z /\ matches ex_hash N.eqb char_hash char_eq 7%Z /\
  exists t rs, run ex_hash N.eqb ex_env empty_table (ins (nums 0 5)) = Ok (t, rs) /\
    hcount_key char_hash char_eq ex_env t 51%Z = Ok 1 /\ hcount_key char_hash char_eq ex_env t 54%Z = Ok 0 /\ hcount_key char_hash char_eq ex_env t 7%Z = Ok 0.
Proof.
  assert (Hm : forall c, matches ex_hash N.eqb char_hash char_eq c).
  { intros c. unfold char_hash, char_eq. split.
    - intros a b Ha. apply Z.eqb_eq in Ha. destruct (N.eqb_spec a b); [subst; apply Z.eqb_eq; lia|apply Z.eqb_neq; lia].
    - intros a Ha. apply Z.eqb_eq in Ha. f_equal. lia. }
  split; [apply Hm|]. split; [apply Hm|]. do 2 eexists. split; [vm_compute; reflexivity|]. split; [vm_compute; reflexivity|]. split; vm_compute; reflexivity.
Qed.
