(** Model of lib/sldr/collation.py: collations from a simple list of items ([Collation.convertSimple],
    [Collation._insertBefore]). *)
From Verif Require Import Py M_UnicodeSets M_Collation M_Tailor.
Open Scope N_scope.

Section Simple.
  Context {W : Type} (wcmp : W -> W -> comparison) (zero one : W).
  Variable bump drop : nat -> nat -> W -> W.
  (** white space; [str.lower], [str.upper] *)
  Variable ws : N -> bool.
  Variable lower upper : pystr -> pystr.
  Notation ducet := (list (pystr * list (W * W * W))).
  Notation tstate := (M_Tailor.tstate (W := W)).

  (** collation.py:519,521: [not stripzero(ducetSortKey(self.ducet, s)[0])] *)
  Definition no_primary (d : ducet) (s : pystr) : res bool :=
    do k <- dkey wcmp zero d s;
    do l <- level k 0;
    Ok (match stripzero wcmp zero l with [] => true | _ => false end).

  (** collation.py:511-515: the items of a line, cut at spaces. [split] never gives an empty list. *)
  Definition space_items (strict : bool) (value : pystr) : list pystr :=
    match split_on 32 value with
    | [a; b] => if (negb strict && streq (lower a) (lower b))%bool then [a ++ [47] ++ b] else [a; b]
    | l => l
    end.

  (** collation.py:530 [sorted(set(...), reverse=True)] *)
  Definition str_geb (a b : pystr) : bool := strleb b a.
  Definition set_of (l : list pystr) : list pystr := nodup (list_eq_dec N.eq_dec) l.
  Definition cased_forms (s : pystr) : list pystr :=
    isort str_geb (set_of (map (fun i => upper (firstn i s) ++ lower (skipn i s)) (seq 0 (S (length s))))).
  (** collation.py:524-532: the items of one of these, cut at slashes; [and] binds stronger than [or] *)
  Definition slash_items (strict : bool) (item : pystr) : list pystr :=
    let l := map (strip ws) (split_on 47 item) in
    let s := hd [] l in
    let l1 := if ((negb strict && negb (streq (upper s) (lower s)) &&
                   (streq (lower s) s && Nat.ltb 1 (length s) && forallb (fun c => streq (lower c) (lower s)) (tl l)))
                  || (Nat.ltb 1 (length s) && Nat.eqb (length l) 1))%bool
              then cased_forms s else l in
    if (Nat.eqb (length l1) 1 && Nat.eqb (length s) 1 && negb (streq (upper s) (lower s)))%bool
    then l1 ++ [if streq s (lower s) then upper s else lower s] else l1.

  (** the state of the loops: the collation, [currBase], [currLevel] *)
  Definition sst := (list (pystr * tel) * option pystr * nat)%type.
  (** collation.py:533-542: one item; [CollElement.__init__] gives order (0,) and no expansion *)
  Definition add_item (st : sst) (s : pystr) : sst :=
    let '(elts, base, level) := st in
    match s with
    | [] => st
    | _ => match base with
           | None => (elts, Some s, 3%nat)
           | Some b => if dmem streq elts s then st
                       else (dset streq elts s (TEl b level 0 [0%nat] [] None None), Some s, 3%nat)
           end
    end.
  (** collation.py:523-542 *)
  Definition add_space_item (strict : bool) (st : sst) (item : pystr) : sst :=
    let '(elts, base, _) := fold_left add_item (slash_items strict item) st in (elts, base, 2%nat).
  (** collation.py:510-542: one line *)
  Definition add_line (d : ducet) (strict : bool) (st : list (pystr * tel) * option pystr) (value : pystr)
    : res (list (pystr * tel) * option pystr) :=
    let '(elts, base) := st in
    let items := space_items strict value in
    do np <- no_primary d (hd [] items);
    do st1 <- (if np then Ok (elts, base, 2%nat)
               else match base with
                    | None => Ok (elts, None, 1%nat)
                    | Some b => do nb <- no_primary d b; Ok (elts, if nb then None else Some b, 1%nat)
                    end);
    let '(elts, base, _) := fold_left (add_space_item strict) items st1 in
    Ok (elts, base).
  Fixpoint add_lines (d : ducet) (strict : bool) (st : list (pystr * tel) * option pystr) (values : list pystr)
    : res (list (pystr * tel) * option pystr) :=
    match values with
    | [] => Ok st
    | v :: vs => do st' <- add_line d strict st v; add_lines d strict st' vs
    end.

  (** collation.py:545-562 [_insertBefore]. [first_op] is the first operation that difflib finds between the elements in
      DUCET order and in tailored order: None when there is none or it is "equal" or "delete", else the part
      [j1:j2] of the tailored order it inserts. The loop ends after the first operation. *)
  Definition by_key (st : tstate) : list pystr :=
    isort (fun a b => match key_at st a, key_at st b with
                      | Some va, Some vb => match sk_lt wcmp zero vb (Some va) with Ok true => false | _ => true end
                      | _, _ => true
                      end) (map fst (ts_elts st)).
  Definition insert_before (first_op : list pystr -> option (nat * nat)) (st : tstate) : res tstate :=
    let out := by_key st in
    match first_op out with
    | None => Ok st
    | Some (j1, j2) =>
        match nth_error out j2 with
        | None => Ok st
        | Some newbase =>
            match nth_error out j1 with
            | None => Raise IndexError
            | Some k =>
                match dget streq (ts_elts st) k with
                | None => Raise KeyError
                | Some b =>
                    let e := match dget streq (ts_elts st) (t_base b) with
                             | Some o => TEl newbase (t_level o) 1 (t_order o) (t_exp o) (t_short o) (t_key o)
                             | None => TEl newbase 1 1 [0%nat] [] None None
                             end in
                    Ok (with_elts st (ddel streq (dset streq (ts_elts st) (t_base b) e) newbase))
                end
            end
        end
    end.
  (** collation.py:505-543 [convertSimple] *)
  Definition convertSimple (d : ducet) (first_op : list pystr -> option (nat * nat)) (fuel : nat) (strict : bool)
    (elts : list (pystr * tel)) (values : list pystr) : res tstate :=
    do r <- add_lines d strict (elts, None) values;
    do st <- setSortKeys wcmp zero one bump drop d false fuel (TSt (fst r) [] false);
    do st <- insert_before first_op st;
    setSortKeys wcmp zero one bump drop d true fuel st.
End Simple.
