(** Model of lib/sldr/collation.py: the weights of tailored sort keys as exact rational numbers. The code uses floats; with
    the weights of DUCET (below 65536) and a few thousand elements their rounding is far below the increment. *)
From Coq Require Import QArith Qcanon.
From Verif Require Import Py M_UnicodeSets M_Collation M_Tailor.
Open Scope nat_scope.

(** collation.py:256: [int(log10(m)) + 1] for m > 0: the number of decimal digits of [m] *)
Fixpoint ndigits_fuel (fuel m : nat) : nat :=
  match fuel with
  | O => 1
  | S f => if Nat.ltb m 10 then 1 else S (ndigits_fuel f (m / 10))
  end.
Definition ndigits (m : nat) : nat := ndigits_fuel m m.

Definition Qc_of_nat (m : nat) : Qc := Q2Qc (Z.of_nat m # 1).
Definition Qc_inv_nat (m : nat) : Qc := Q2Qc (1 # Pos.of_nat m).
(** collation.py:256 [inc] *)
Definition inc (nb n : nat) : Qc := Qc_inv_nat (10 ^ ndigits ((nb + 1) * n)).
(** collation.py:259 the third argument of [sortkey] *)
Definition beforeshift (nb : nat) : Qc := Qc_inv_nat (nb + 1).
Definition bumpQ (nb n : nat) (w : Qc) : Qc := (w + inc nb n)%Qc.
Definition dropQ (nb n : nat) (w : Qc) : Qc := (w - beforeshift nb)%Qc.

(** the DUCET table with its weights as rationals *)
Definition ducetQ (d : list (pystr * list (N * N * N))) : list (pystr * list (Qc * Qc * Qc)) :=
  map (fun p => (fst p, map (fun t => (Qc_of_nat (N.to_nat (fst (fst t))), Qc_of_nat (N.to_nat (snd (fst t))),
                                      Qc_of_nat (N.to_nat (snd t)))) (snd p))) d.
Notation setSortKeysQ := (setSortKeys Qccompare (Q2Qc 0) (Q2Qc 1) bumpQ dropQ).
Notation sortKeyQ := (coll_sortKey Qccompare (Q2Qc 0)).
Notation diffLevelQ := (diffLevel Qccompare (Q2Qc 0)).
