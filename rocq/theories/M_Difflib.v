(** Model of Python's difflib.SequenceMatcher.get_opcodes, as called in lib/sldr/collation.py:410 and 549: no junk
    function, automatic dropping of popular items.
    This is the standard library of Python 3.11 (difflib.py), not /repo; it is here so that what minimise does with
    concrete collations can be followed to the end. *)
From Verif Require Import Py.
Local Open Scope nat_scope.

Inductive optag := Replace | Delete | Insert | Equal.
(** tag, i1, i2, j1, j2 *)
Record op := Op { o_tag : optag; o_i1 : nat; o_i2 : nat; o_j1 : nat; o_j2 : nat }.

Section Difflib.
  Context {A : Type} (eqb : A -> A -> bool).
  Variables a b : list A.

  Definition eqat (i j : nat) : bool :=
    match nth_error a i, nth_error b j with Some x, Some y => eqb x y | _, _ => false end.
  Definition same (x : A) (j : nat) : bool := match nth_error b j with Some y => eqb x y | None => false end.
  (** __chain_b: where [x] is in [b]; an item in more than 1% of 200 or more is left out *)
  Definition places (x : A) : list nat :=
    let l := filter (same x) (seq 0 (length b)) in
    if (Nat.leb 200 (length b) && Nat.ltb (length b / 100 + 1) (length l))%bool then [] else l.
  Definition lookup (l : list (nat * nat)) (j : nat) : nat := match dget Nat.eqb l j with Some k => k | None => 0 end.

  (** find_longest_match: the inner loop *)
  Fixpoint row (i : nat) (prev : list (nat * nat)) (js : list nat) (best : nat * nat * nat) : list (nat * nat) * (nat * nat * nat) :=
    match js with
    | [] => ([], best)
    | j :: js' =>
        let k := (match j with O => 0 | S j' => lookup prev j' end) + 1 in
        let best := if Nat.ltb (snd best) k then (i + 1 - k, j + 1 - k, k) else best in
        let r := row i prev js' best in ((j, k) :: fst r, snd r)
    end.
  (** ... the outer loop over [n] places from [i] *)
  Fixpoint rows (n i blo bhi : nat) (prev : list (nat * nat)) (best : nat * nat * nat) : nat * nat * nat :=
    match n with
    | O => best
    | S n' =>
        let js := match nth_error a i with
                  | Some x => filter (fun j => (Nat.leb blo j && Nat.ltb j bhi)%bool) (places x)
                  | None => []
                  end in
        let r := row i prev js best in
        rows n' (S i) blo bhi (fst r) (snd r)
    end.
  (** ... lengthening to the left and to the right *)
  Fixpoint left_ext (n i j k alo blo : nat) : nat * nat * nat :=
    match n with
    | O => (i, j, k)
    | S n' => if (Nat.ltb alo i && Nat.ltb blo j && eqat (i - 1) (j - 1))%bool then left_ext n' (i - 1) (j - 1) (k + 1) alo blo else (i, j, k)
    end.
  Fixpoint right_ext (n i j k ahi bhi : nat) : nat * nat * nat :=
    match n with
    | O => (i, j, k)
    | S n' => if (Nat.ltb (i + k) ahi && Nat.ltb (j + k) bhi && eqat (i + k) (j + k))%bool then right_ext n' i j (k + 1) ahi bhi else (i, j, k)
    end.
  Definition longest (alo ahi blo bhi : nat) : nat * nat * nat :=
    let '(i, j, k) := rows (ahi - alo) alo blo bhi [] (alo, blo, 0) in
    let '(i, j, k) := left_ext i i j k alo blo in
    right_ext ahi i j k ahi bhi.

  (** get_matching_blocks; the queue is worked off in another order, but the blocks are sorted in the end, and what is to
      the left of a block comes before it *)
  Fixpoint blocks (fuel alo ahi blo bhi : nat) : list (nat * nat * nat) :=
    match fuel with
    | O => []
    | S f =>
        let '(i, j, k) := longest alo ahi blo bhi in
        if Nat.eqb k 0 then [] else
          (if (Nat.ltb alo i && Nat.ltb blo j)%bool then blocks f alo i blo j else [])
          ++ [(i, j, k)]
          ++ (if (Nat.ltb (i + k) ahi && Nat.ltb (j + k) bhi)%bool then blocks f (i + k) ahi (j + k) bhi else [])
    end.
  Fixpoint collapse (i1 j1 k1 : nat) (l : list (nat * nat * nat)) : list (nat * nat * nat) :=
    match l with
    | [] => if Nat.eqb k1 0 then [] else [(i1, j1, k1)]
    | (i2, j2, k2) :: l' =>
        if (Nat.eqb (i1 + k1) i2 && Nat.eqb (j1 + k1) j2)%bool then collapse i1 j1 (k1 + k2) l'
        else (if Nat.eqb k1 0 then [] else [(i1, j1, k1)]) ++ collapse i2 j2 k2 l'
    end.
  Definition matching_blocks : list (nat * nat * nat) :=
    collapse 0 0 0 (blocks (S (length a)) 0 (length a) 0 (length b)) ++ [(length a, length b, 0)].
  (** get_opcodes *)
  Fixpoint opcodes (i j : nat) (l : list (nat * nat * nat)) : list op :=
    match l with
    | [] => []
    | (ai, bj, size) :: l' =>
        (if (Nat.ltb i ai && Nat.ltb j bj)%bool then [Op Replace i ai j bj]
         else if Nat.ltb i ai then [Op Delete i ai j bj]
         else if Nat.ltb j bj then [Op Insert i ai j bj] else [])
        ++ (if Nat.eqb size 0 then [] else [Op Equal ai (ai + size) bj (bj + size)])
        ++ opcodes (ai + size) (bj + size) l'
    end.
  Definition get_opcodes : list op := opcodes 0 0 matching_blocks.
End Difflib.
