(** Model of the class IterDict, lib/sldr/xmltemplate.py 9-40: the assignments a template
    repetition runs over. *)
From Coq Require Import String.
From Verif Require Import Py.
Local Open Scope list_scope.
Local Open Scope nat_scope.

(** A value given for a variable, as far as IterDict looks at it: whether it is a string,
    whether it has an attribute called "len", its own [str()], and the [str()] of its items
    when it is indexed. Lists, tuples, strings, numbers, nodes have no attribute "len". *)
Record value := mkValue { v_isstr : bool; v_haslen : bool; v_str : pystr; v_items : list pystr }.

(** xmltemplate.py:10-14. An entry of [values] is the list of the [str()] of its items. *)
Record iterdict := mkID {
  id_keys : list (pystr * nat); id_values : list (list pystr);
  id_indices : list nat; id_atstart : bool }.
Definition new_iterdict : iterdict := mkID [] [] [] true.

(** xmltemplate.py:16-21 *)
Definition setitem (d : iterdict) (key : pystr) (v : value) : iterdict :=
  let items := if (v_isstr v || negb (v_haslen v))%bool then [v_str v] else v_items v in
  mkID (dset streq (id_keys d) key (List.length (id_values d)))
       (id_values d ++ [items]) (id_indices d ++ [0]) (id_atstart d).

(** xmltemplate.py:26 [self.values[i][self.indices[i]]] *)
Definition item_at (values : list (list pystr)) (indices : list nat) (i : nat) : res pystr :=
  match nth_error values i, nth_error indices i with
  | Some l, Some j => match nth_error l j with Some s => Ok s | None => Raise IndexError end
  | _, _ => Raise IndexError
  end.
(** xmltemplate.py:23-27 *)
Definition asdict (d : iterdict) : res (list (pystr * pystr)) :=
  fold_left (fun r (kv : pystr * nat) =>
    do res <- r; do s <- item_at (id_values d) (id_indices d) (snd kv); Ok (dset streq res (fst kv) s))
    (id_keys d) (Ok []).

(** xmltemplate.py:36-39: the first index that can still grow is moved on *)
Fixpoint advance (values : list (list pystr)) (indices : list nat) : option (list nat) :=
  match values, indices with
  | l :: vs, j :: js =>
      if j + 1 <? List.length l then Some (j + 1 :: js)
      else match advance vs js with Some js' => Some (j :: js') | None => None end
  | _, _ => None
  end.

(** xmltemplate.py:32-40: [None] is StopIteration. *)
Definition next_ (d : iterdict) : res (option (list (pystr * pystr) * iterdict)) :=
  if id_atstart d then
    let d' := mkID (id_keys d) (id_values d) (id_indices d) false in
    do r <- asdict d'; Ok (Some (r, d'))
  else match advance (id_values d) (id_indices d) with
       | Some js => let d' := mkID (id_keys d) (id_values d) js false in
                    do r <- asdict d'; Ok (Some (r, d'))
       | None => Ok None
       end.

(** [for v in itervars], xmltemplate.py:107: the assignments met. [fuel] bounds the rounds. *)
Fixpoint iterate (fuel : nat) (d : iterdict) : res (list (list (pystr * pystr))) :=
  match fuel with
  | O => Raise OutOfFuel
  | S f => do o <- next_ d;
           match o with
           | None => Ok []
           | Some (r, d') => do rs <- iterate f d'; Ok (r :: rs)
           end
  end.
