(** Model of lib/sldr/collation.py: tailored sort keys ([CollElement.expand], [CollElement.sortkey],
    [Collation._setSortKeys], [Collation.sortKey]).

    Weights are any type with a comparison and two functions for the two changes made to a weight; the
    code adds and subtracts floats. [M_TailorQ] takes exact rationals (no rounding).
    Simplification: [CollElement.prefix] is left out, nothing in /repo sets it to anything but "". *)
From Verif Require Import Py M_UnicodeSets M_Collation.
Open Scope N_scope.

(** A sort key held by an element. [SortKey.copy] (collation.py:188) copies the lists of the levels, but
    [SortKey.__add__] (152) gives a plain list, and copying that shares the lists of the levels. So the
    lists of the levels of a key live in a numbered cell, which plain lists share. *)
Record kref := KRef { k_plain : bool; k_cell : nat }.

(** collation.py:565-580 [CollElement]; [t_short] is None while the attribute is the empty string, [t_key]
    is None while there is no such attribute. An order is a tuple of numbers. *)
Record tel := TEl { t_base : pystr; t_level : nat; t_before : N; t_order : list nat; t_exp : pystr;
                    t_short : option kref; t_key : option kref }.
Definition set_base_exp (e : tel) (b x : pystr) : tel :=
  TEl b (t_level e) (t_before e) (t_order e) x (t_short e) (t_key e).
Definition set_exp (e : tel) (x : pystr) : tel := set_base_exp e (t_base e) x.
Definition set_key (e : tel) (k : kref) : tel :=
  TEl (t_base e) (t_level e) (t_before e) (t_order e) (t_exp e) (t_short e) (Some k).
Definition set_short (e : tel) (k : kref) : tel :=
  TEl (t_base e) (t_level e) (t_before e) (t_order e) (t_exp e) (Some k) (t_key e).

(** an entry made by [parse] (M_Collation), as [_setSortKeys] finds it *)
Definition tel_of (c : celt) : tel :=
  TEl (ce_base c) (ce_level c) (ce_before c) [fst (ce_order c); snd (ce_order c)] (ce_exp c) None None.

(** comparison of tuples of numbers *)
Definition order_leb (a b : list nat) : bool := match lcmp Nat.compare a b with Gt => false | _ => true end.

(** the last item of a list replaced ([l[-1] += x]); None when there is none *)
Fixpoint upd_last {A} (f : A -> A) (l : list A) : option (list A) :=
  match l with
  | [] => None
  | [x] => Some [f x]
  | x :: l' => match upd_last f l' with Some r => Some (x :: r) | None => None end
  end.
Fixpoint set_nth {A} (i : nat) (x : A) (l : list A) : list A :=
  match i, l with
  | O, _ :: l' => x :: l'
  | S i', y :: l' => y :: set_nth i' x l'
  | _, [] => []
  end.

Section Tailor.
  Context {W : Type} (wcmp : W -> W -> comparison) (zero one : W).
  (** [x + inc] and [x - beforeshift], given the number of elements with a before and the number of elements
      (collation.py:255-256) *)
  Variable bump : nat -> nat -> W -> W.
  Variable drop : nat -> nat -> W -> W.
  Notation skey := (list (list W)).
  Notation ducet := (list (pystr * list (W * W * W))).

  (** elements in dictionary order; cells; [issorted] *)
  Record tstate := TSt { ts_elts : list (pystr * tel); ts_cells : list skey; ts_sorted : bool }.
  Definition with_elts (st : tstate) (d : list (pystr * tel)) : tstate := TSt d (ts_cells st) (ts_sorted st).
  Definition with_cells (st : tstate) (c : list skey) : tstate := TSt (ts_elts st) c (ts_sorted st).
  Definition t_set (st : tstate) (k : pystr) (e : tel) : tstate := with_elts st (dset streq (ts_elts st) k e).
  Definition alloc (st : tstate) (v : skey) : tstate * kref :=
    (with_cells st (ts_cells st ++ [v]), KRef false (length (ts_cells st))).
  Definition deref (st : tstate) (r : kref) : skey := nth (k_cell r) (ts_cells st) [].
  (** [r.copy()]: collation.py:188-189 for a SortKey, [list.copy] for a plain list *)
  Definition kcopy (st : tstate) (r : kref) : tstate * kref :=
    if k_plain r then (st, r) else alloc st (deref st r).

  (** collation.py:43-73 [ducetSortKey(d, k)] *)
  Definition dkey (d : ducet) (k : pystr) : res skey :=
    ducetSortKey wcmp zero (key_of d (fun _ => None) None) k.

  (** collation.py:601-611 [CollElement.expand] *)
  Fixpoint longest_known (known : pystr -> bool) (s : pystr) (i : nat) : option nat :=
    match i with
    | O => None
    | S i' => if known (firstn i s) then Some i else longest_known known s i'
    end.
  Definition expand (known : pystr -> bool) (e : tel) : tel :=
    match t_exp e with
    | _ :: _ => e
    | [] => match longest_known known (t_base e) (length (t_base e)) with
            | None => e
            | Some l => set_base_exp e (firstn l (t_base e)) (skipn l (t_base e))
            end
    end.

  (** [ducetSortKey(d, k, extra=collations)], collation.py:54-67: looking at an element that has no key yet
      raises AttributeError (line 56) *)
  Definition look_extra (d : ducet) (st : tstate) (p : pystr) : res (option (key3 (W := W))) :=
    match dget streq (ts_elts st) p with
    | Some e => match t_key e with
                | None => Raise AttributeError
                | Some r => match deref st r with
                            | [a; b; c] => Ok (Some (a, b, c))
                            | _ => Raise IndexError
                            end
                end
    | None => Ok (key_of d (fun _ => None) None p)
    end.
  Fixpoint longest_r (look : pystr -> res (option (key3 (W := W)))) (k : pystr) (i : nat) :
    res (option (nat * key3)) :=
    match i with
    | O => Ok None
    | S i' => do o <- look (firstn i k);
              match o with
              | Some key => Ok (Some (i, key))
              | None => longest_r look k i'
              end
    end.
  Fixpoint sortkey_loop_r (look : pystr -> res (option (key3 (W := W)))) (fuel : nat) (k : pystr) (acc : key3) :
    res key3 :=
    match k with
    | [] => Ok acc
    | _ =>
        do o <- longest_r look k (length k);
        match o with
        | None => Ok acc
        | Some (i, (a, b, c)) =>
            match fuel with
            | O => Raise OutOfFuel
            | S f => sortkey_loop_r look f (skipn i k)
                       (fst (fst acc) ++ a, snd (fst acc) ++ b, snd acc ++ c)
            end
        end
    end.
  Definition xkey (d : ducet) (st : tstate) (k : pystr) : res skey :=
    do r <- sortkey_loop_r (look_extra d st) (length k) k ([], [], []);
    let '(a, b, c) := r in
    if Nat.eqb (length k) 1 then Ok [a; b; c]
    else Ok [strip_all wcmp zero a; strip_all wcmp zero b; strip_all wcmp zero c].

  (** collation.py:625-626: the change made to the copied key of the base. Level 0 (an operator without
      [<], such as two equals signs) indexes the last level. *)
  Definition shift_key (nb n : nat) (e : tel) (v : skey) : res skey :=
    if Nat.ltb (t_level e) 4 then
      let i := match t_level e with O => (length v - 1)%nat | S i => i end in
      do l <- level v i;
      let f := if (N.eqb (t_before e) 0 || negb (N.eqb (t_before e) (N.of_nat (t_level e))))%bool
               then bump nb n else drop nb n in
      match upd_last f l with
      | None => Raise IndexError
      | Some l' => Ok (set_nth i l' v)
      end
    else Ok v.

  (** [zip_longest] of two keys of equal length, collation.py:144-147 *)
  Definition sk_add (a b : skey) : skey := map (fun p => fst p ++ snd p) (combine a b).

  (** collation.py:627-639: expansion and the two results, given the changed key of the base. Appending to a
      plain list (line 636) adds a fourth item to it, which nothing looks at: left out. *)
  Definition finish_key (d : ducet) (st : tstate) (k : pystr) (b : option tel) (r : kref) : res tstate :=
    match dget streq (ts_elts st) k with
    | None => Raise KeyError
    | Some e =>
        let x := match t_exp e, b with
                 | [], Some be => t_exp be
                 | x, _ => x
                 end in
        let e := set_exp e x in
        let st := t_set st k e in
        match x with
        | [] => Ok (t_set st k (set_key (set_short e r) r))
        | _ =>
            do ek <- xkey d st x;
            do gt <- sk_gt wcmp zero ek (Some (deref st r));
            let (st, s) := if gt then
                             let (st, s) := alloc st (sk_add ek [[one]; [zero]; [zero]]) in
                             (st, KRef true (k_cell s))
                           else kcopy st r in
            let (st, kr) := if k_plain r then (st, r) else alloc st (sk_add (deref st r) ek) in
            Ok (t_set st k (set_key (set_short e s) kr))
        end
    end.

  (** collation.py:613-641 [CollElement.sortkey] of the element filed under [k]. [fuel] bounds the depth of
      the recursion. *)
  Fixpoint sortkey (d : ducet) (nb n : nat) (force : bool) (fuel : nat) (st : tstate) (k : pystr) : res tstate :=
    match fuel with
    | O => Raise OutOfFuel
    | S f =>
        match dget streq (ts_elts st) k with
        | None => Raise KeyError
        | Some e =>
            match t_key e, force with
            | Some _, false => Ok st
            | _, _ =>
                do dk <- dkey d (t_base e);
                let (st, kr) := alloc st dk in
                let st := t_set st k (set_key e kr) in
                do (st, r) <-
                   match dget streq (ts_elts st) (t_base e) with
                   | Some b =>
                       if order_leb (t_order b) (t_order e) then
                         do st <- sortkey d nb n force f st (t_base e);
                         match dget streq (ts_elts st) (t_base e) with
                         | Some b => match t_short b with
                                     | Some s => Ok (kcopy st s)
                                     | None => Raise AttributeError
                                     end
                         | None => Raise KeyError
                         end
                       else Ok (kcopy st kr)
                   | None => Ok (kcopy st kr)
                   end;
                do v <- shift_key nb n e (deref st r);
                let st := with_cells st (set_nth (k_cell r) v (ts_cells st)) in
                finish_key d st k (dget streq (ts_elts st) (t_base e)) r
            end
        end
    end.

  (** collation.py:251-260 [_setSortKeys]; the values are visited sorted by their order (stable) *)
  Definition num_befores (elts : list (pystr * tel)) : nat :=
    length (filter (fun p => N.ltb 0 (t_before (snd p))) elts).
  Definition t_known (d : ducet) (st : tstate) (p : pystr) : bool :=
    (dmem streq (ts_elts st) p || dmem streq d p)%bool.
  Definition set_one (d : ducet) (nb n : nat) (force : bool) (fuel : nat) (st : tstate) (k : pystr) : res tstate :=
    match dget streq (ts_elts st) k with
    | None => Raise KeyError
    | Some e => sortkey d nb n force fuel (t_set st k (expand (t_known d st) e)) k
    end.
  Fixpoint set_all (d : ducet) (nb n : nat) (force : bool) (fuel : nat) (st : tstate) (ks : list pystr) : res tstate :=
    match ks with
    | [] => Ok st
    | k :: ks' => do st <- set_one d nb n force fuel st k; set_all d nb n force fuel st ks'
    end.
  Definition by_order (elts : list (pystr * tel)) : list pystr :=
    map fst (isort (fun a b => order_leb (t_order (snd a)) (t_order (snd b))) elts).
  Definition setSortKeys (d : ducet) (force : bool) (fuel : nat) (st : tstate) : res tstate :=
    let elts := ts_elts st in
    if ((negb (ts_sorted st) || force) && Nat.ltb 0 (length elts))%bool then
      do st <- set_all d (num_befores elts) (length elts) force fuel st (by_order elts);
      Ok (TSt (ts_elts st) (ts_cells st) true)
    else Ok st.

  (** the key and the short key an element ends up with *)
  Definition key_at (st : tstate) (k : pystr) : option skey :=
    match dget streq (ts_elts st) k with
    | Some e => match t_key e with Some r => Some (deref st r) | None => None end
    | None => None
    end.
  Definition short_at (st : tstate) (k : pystr) : option skey :=
    match dget streq (ts_elts st) k with
    | Some e => match t_short e with Some r => Some (deref st r) | None => None end
    | None => None
    end.

  (** collation.py:380-381 [Collation.sortKey]: the tailored key of a string; an element without a key raises
      AttributeError *)
  Definition look_fn (d : ducet) (st : tstate) (p : pystr) : res (option (key3 (W := W))) := look_extra d st p.
  Definition coll_sortKey (d : ducet) (st : tstate) (k : pystr) : res skey :=
    do r <- sortkey_loop_r (look_fn d st) (length k) k ([], [], []);
    let '(a, b, c) := r in
    if Nat.eqb (length k) 1 then Ok [a; b; c]
    else Ok [strip_all wcmp zero a; strip_all wcmp zero b; strip_all wcmp zero c].
End Tailor.
Arguments TSt {W}.
Arguments ts_elts {W}.
Arguments ts_cells {W}.
Arguments ts_sorted {W}.
