(** Model of lib/sldr/collation.py: writing a collation as ICU rules ([Collation.cmpKeys], [Collation.asICU]).
    Left out: the debugging output of [withkeys], and [CollElement.prefix] (nothing sets it). *)
From Verif Require Import Py M_UnicodeSets M_Collation M_Tailor.
Open Scope N_scope.

(** [str(n)] of a natural number *)
Fixpoint dec_fuel (fuel : nat) (n : N) : pystr :=
  match fuel with
  | O => []
  | S f => if N.ltb n 10 then [48 + n] else dec_fuel f (N.div n 10) ++ [48 + N.modulo n 10]
  end.
Definition dec (n : N) : pystr := dec_fuel (S (N.to_nat (N.size n))) n.

Section AsICU.
  Context {W : Type} (wcmp : W -> W -> comparison) (zero one : W).
  Variable bump drop : nat -> nat -> W -> W.
  (** white space; combining marks *)
  Variable ws isM : N -> bool.

  (** collation.py:262-267 [cmpKeys]; [lastk] is None at first, which no element is filed under. Called when every
      element has a key. In the code a key made of a plain list (see M_Tailor) has a fourth item, which this function would
      look at for level 4; here keys have three levels. *)
  Definition cmpKeys (st : tstate) (a : pystr) (b : option pystr) (level : nat) : res bool :=
    match b with
    | None => Ok false
    | Some b => match key_at st a, key_at st b with
                | Some va, Some vb => cmpKey wcmp zero (Some va) (Some vb) level
                | _, _ => Ok false
                end
    end.

  (** the state of the loop, collation.py:271-276: [res] (as a list), [loc], [eqchain], [lastk]. [lastbefore] stays 0 and
      [skip] stays empty. *)
  Record wst := WSt { w_res : pystr; w_loc : nat; w_eq : option pystr; w_last : option pystr }.
  Definition esc (s : pystr) : pystr := coll_escape isM false s.
  Definition eq_is (o : option pystr) (b : pystr) : bool := match o with Some x => streq x b | None => false end.

  (** collation.py:283-286: the text of a reset *)
  Definition reset_text (e : tel) : pystr :=
    [10; 38] ++ (if N.eqb (t_before e) 0 then [] else lit "[before " ++ dec (t_before e) ++ [93]) ++ esc (t_base e).
  (** collation.py:292-301: operator, element, expansion *)
  Definition op_text (level : nat) : pystr :=
    if Nat.eqb level 4 then lit "= " else firstn level (lit "<<<") ++ [32].
  Definition rel_text (k : pystr) (e : tel) : pystr :=
    op_text (t_level e) ++ esc k ++ match t_exp e with [] => [] | x => 47 :: esc x end.
  (** collation.py:277-304: one turn of the loop *)
  Definition write_one (st : tstate) (wrap : nat) (w : wst) (k0 : pystr) (e : tel) : res wst :=
    let k := rstrip ws k0 in
    do same <- cmpKeys st (t_base e) (w_last w) (t_level e);
    let reset := ((negb same && negb (eq_is (w_eq w) (t_base e))) || negb (N.eqb (t_before e) 0))%bool in
    let loc := if reset then S (length (w_res w)) else w_loc w in
    let r := if reset then w_res w ++ reset_text e else w_res w in
    let eq := if reset then None else w_eq w in
    let long := (negb (Nat.eqb wrap 0) && Nat.ltb wrap (length r - loc))%bool in
    let r := r ++ [if long then 10 else 32] in
    let loc := if long then length r else loc in
    let eq := if Nat.eqb (t_level e) 4 then match eq with None => Some (t_base e) | q => q end else None in
    Ok (WSt (r ++ rel_text k e) loc eq (Some k)).
  Fixpoint write_all (st : tstate) (wrap : nat) (w : wst) (its : list (pystr * tel)) : res wst :=
    match its with
    | [] => Ok w
    | (k, e) :: its' => do w' <- write_one st wrap w k e; write_all st wrap w' its'
    end.
  (** collation.py:305 *)
  Definition icu_text (st : tstate) (wrap : nat) (its : list (pystr * tel)) : res pystr :=
    do w <- write_all st wrap (WSt [] 0 None None) its; Ok (tl (w_res w)).

  (** collation.py:269-305 [asICU] with the ordering by order of definition, as scripts/icupretty:54 calls it *)
  Definition in_order (elts : list (pystr * tel)) : list (pystr * tel) :=
    isort (fun a b => order_leb (t_order (snd a)) (t_order (snd b))) elts.
  Definition asICU_by_order (d : list (pystr * list (W * W * W))) (fuel wrap : nat) (st : tstate) : res (tstate * pystr) :=
    do st <- setSortKeys wcmp zero one bump drop d false fuel st;
    do t <- icu_text st wrap (in_order (ts_elts st));
    Ok (st, t).
  (** the same with the default ordering, by short key; sorting compares keys with [<] *)
  Definition in_key_order (st : tstate) : list (pystr * tel) :=
    isort (fun a b => match short_at st (fst a), short_at st (fst b) with
                      | Some va, Some vb => match sk_lt wcmp zero vb (Some va) with Ok true => false | _ => true end
                      | _, _ => true
                      end) (ts_elts st).
  Definition asICU (d : list (pystr * list (W * W * W))) (fuel wrap : nat) (st : tstate) : res (tstate * pystr) :=
    do st <- setSortKeys wcmp zero one bump drop d false fuel st;
    do t <- icu_text st wrap (in_key_order st);
    Ok (st, t).
End AsICU.
