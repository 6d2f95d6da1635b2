(** Model of lib/sldr/collation.py 308-358: a collation written as a simple list of items
    ([Collation.asSimple]). *)
From Verif Require Import Py M_UnicodeSets M_Collation M_Tailor M_Simple.
Open Scope N_scope.

(** The two loops of [getparents] follow the bases; they need not end, so they take fuel, and None is
    for more steps than there is fuel. The dictionaries of the tree keep the order of insertion. *)
Section AsSimple.
  Variable elts : list (pystr * tel).
  (** collation.py:339, 345: [not stripzero(ducetSortKey(self.ducet, k)[0])], see [np_of] *)
  Variable np : pystr -> bool.

  (** collation.py:312-317: up to what is not tailored at level 3 *)
  Fixpoint up3 (fuel : nat) (v : pystr) : option pystr :=
    match fuel with
    | O => None
    | S f => match dget streq elts v with
             | Some e => if Nat.eqb (t_level e) 3 then up3 f (t_base e) else Some v
             | None => Some v
             end
    end.
  (** collation.py:320-325: up to what is not tailored or tailored at level 1 *)
  Fixpoint up1 (fuel : nat) (v : pystr) : option pystr :=
    match fuel with
    | O => None
    | S f => match dget streq elts v with
             | Some e => if Nat.eqb (t_level e) 1 then Some v else up1 f (t_base e)
             | None => Some v
             end
    end.
  (** collation.py:310-326. The argument [level] is 2 or 3 and set to 3 only: [level == 1] (318) is never
      true, and it is left out. *)
  Definition getparents (fuel : nat) (v : pystr) : option (pystr * pystr) :=
    match up3 fuel v with
    | None => None
    | Some second =>
        match dget streq elts second with
        | None => Some (second, second)
        | Some _ => match up1 fuel second with Some top => Some (top, second) | None => None end
        end
    end.

  Definition tree := list (pystr * list (pystr * list pystr)).
  (** [d.setdefault(k, v)] *)
  Definition setdefault {V} (d : list (pystr * V)) (k : pystr) (v : V) : list (pystr * V) :=
    if dmem streq d k then d else dset streq d k v.
  Definition got {V} (d : list (pystr * list V)) (k : pystr) : list V :=
    match dget streq d k with Some v => v | None => [] end.
  (** [tree.setdefault(top, {}).setdefault(second, [])], and the same with [.append(k)] *)
  Definition place2 (t : tree) (top second : pystr) : tree := dset streq t top (setdefault (got t top) second []).
  Definition place3 (t : tree) (top second k : pystr) : tree :=
    dset streq t top (dset streq (got t top) second (got (got t top) second ++ [k])).

  (** collation.py:330-348: one element *)
  Definition plant (fuel : nat) (t : tree) (k : pystr) (e : tel) : option tree :=
    match
      match t_level e with
      | 3%nat => match getparents fuel (t_base e) with
                 | Some (top, second) => Some (place3 t top second k)
                 | None => None
                 end
      | 2%nat => match getparents fuel k with
                 | Some (top, second) => Some (place2 t (if np k then [] else top) second)
                 | None => None
                 end
      | 1%nat => Some (setdefault t k [])
      | _ => Some t
      end
    with
    | None => None
    | Some t =>
        Some (if dmem streq elts (t_base e) then t
              else if np (t_base e) then place2 t [] (t_base e) else setdefault t (t_base e) [])
    end.
  Fixpoint plant_all (fuel : nat) (t : tree) (l : list (pystr * tel)) : option tree :=
    match l with
    | [] => Some t
    | (k, e) :: l' => match plant fuel t k e with Some t => plant_all fuel t l' | None => None end
    end.

  (** collation.py:350-357: one line; an empty list adds nothing *)
  Definition slashed (l : list pystr) : pystr := match l with [] => [] | _ => [47] ++ join [47] l end.
  Definition tree_line (k : pystr) (v : list (pystr * list pystr)) : pystr :=
    k ++ slashed (got v k) ++
    flat_map (fun '(a, l) => if streq a k then [] else [32] ++ a ++ slashed l) v.
  (** collation.py:328-358; [ordered]: the elements in the order asked for *)
  Definition as_simple (fuel : nat) (ordered : list (pystr * tel)) : option pystr :=
    match plant_all fuel [] ordered with
    | Some t => Some (join [10] (map (fun '(k, v) => tree_line k v) t))
    | None => None
    end.
End AsSimple.

Section Ordering.
  Context {W : Type} (wcmp : W -> W -> comparison) (zero : W).
  (** [no_primary] never raises (T_Simple2, [C62_any] goes through it) *)
  Definition np_of (d : list (pystr * list (W * W * W))) (s : pystr) : bool :=
    match no_primary wcmp zero d s with Ok b => b | Raise _ => false end.
  (** collation.py:308, 330: the default ordering, by [shortkey]. [sorted] uses [<] only. *)
  Definition by_short (st : tstate (W := W)) : list (pystr * tel) :=
    isort (fun a b => match short_at st (fst a), short_at st (fst b) with
                      | Some va, Some vb => match sk_lt wcmp zero vb (Some va) with Ok true => false | _ => true end
                      | _, _ => true
                      end) (ts_elts st).
  Definition asSimple (d : list (pystr * list (W * W * W))) (fuel : nat) (st : tstate) : option pystr :=
    as_simple (ts_elts st) (np_of d) fuel (by_short st).
End Ordering.
