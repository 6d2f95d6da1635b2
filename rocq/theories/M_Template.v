(** Model of Templater.process, processattrib, xpath and IterDict
    (/repo/lib/sldr/xmltemplate.py 9-48, 65-160).
    Simplifications: evaluating an XPath, which lxml does, is a function [xp] of the variables,
    the context and the text of the path; [str] of a result is a function [vstr]; the context
    is given (line 71); comments and processing instructions in templates are left out; a CDATA
    section is its text. *)
From Coq Require Import String.
From Verif Require Import Py.
Local Open Scope list_scope.
Local Open Scope nat_scope.

(** xmltemplate.py:6-7 *)
Definition tmpl : pystr := lit "{uri://nrsi.sil.org/template/0.1}".
Definition tmpla : pystr := lit "{uri://nrsi.sil.org/template_attributes/0.1}".

(** an element of a template *)
Inductive tn := TN (tag : pystr) (attrs : list (pystr * pystr)) (text tail : option pystr) (kids : list tn).
Definition tag_of (n : tn) := match n with TN t _ _ _ _ => t end.
Definition attrs_of (n : tn) := match n with TN _ a _ _ _ => a end.
Definition text_of (n : tn) := match n with TN _ _ x _ _ => x end.
Definition tail_of (n : tn) := match n with TN _ _ _ x _ => x end.
Definition kids_of (n : tn) := match n with TN _ _ _ _ k => k end.

Section Template.
Variable C : Type.                          (* nodes of the documents *)
Variable ctext : C -> option pystr.         (* their text *)

(** a result of xpath: a string, a node, or a list that does not have one member *)
Inductive item := IStr (s : pystr) | INode (c : C).
Inductive value := VStr (s : pystr) | VNode (c : C) | VList (l : list item).
Definition as_value (i : item) : value := match i with IStr s => VStr s | INode c => VNode c end.
(** what lxml gives: also numbers and booleans *)
Inductive raw := RStr (s : pystr) | RList (l : list item) | RNum.
Notation vars := (list (pystr * value)).

Variable vstr : value -> pystr.
Variable xp : vars -> value -> option pystr -> res raw.

(** xmltemplate.py:142-160 xpath. When the evaluation fails the code reads e.message, which
    exceptions do not have, so the exception is an AttributeError. A number has no len(). *)
Definition xpath (vs : vars) (ctx : value) (path : option pystr) : res value :=
  match xp vs ctx path with
  | Raise _ => Raise AttributeError
  | Ok (RStr s) => Ok (VStr s)
  | Ok (RList [i]) => Ok (as_value i)
  | Ok (RList l) => Ok (VList l)
  | Ok RNum => Raise TypeError
  end.

(** c.attrib[k] *)
Definition attr (a : list (pystr * pystr)) (k : pystr) : res pystr :=
  match dget streq a k with Some v => Ok v | None => Raise KeyError end.

(** xmltemplate.py:134-140 processattrib; items() is a list made before the loop *)
Fixpoint attrib_loop (vs : vars) (ctx : value) (items a : list (pystr * pystr)) : res (list (pystr * pystr)) :=
  match items with
  | [] => Ok a
  | (k, v) :: items' =>
      match strip_prefix tmpla k with
      | Some newk => do newv <- xpath vs ctx (Some v);
                     attrib_loop vs ctx items' (ddel streq (dset streq a newk (vstr newv)) k)
      | None => attrib_loop vs ctx items' a
      end
  end.
Definition processattrib (vs : vars) (ctx : value) (a : list (pystr * pystr)) : res (list (pystr * pystr)) :=
  attrib_loop vs ctx a a.

(** xmltemplate.py:41-48 asstr *)
Definition asstr (v : value) : option pystr :=
  match v with
  | VStr s => Some s
  | VNode c => ctext c
  | VList [] => Some []
  | VList (IStr s :: _) => Some s
  | VList (INode c :: _) => ctext c
  end.

(** xmltemplate.py:9-39 IterDict. None of the values given to it has an attribute "len", so
    each is wrapped (16-17). *)
Record iterdict := mkIter { it_keys : list (pystr * nat); it_values : list (list value); it_indices : list nat }.
Definition it_empty : iterdict := mkIter [] [] [].
Definition it_set (d : iterdict) (k : pystr) (v : value) : iterdict :=
  mkIter (dset streq (it_keys d) k (length (it_values d))) (it_values d ++ [[v]]) (it_indices d ++ [0]).
Definition it_asdict (d : iterdict) : vars :=
  flat_map (fun ki => match nth_error (it_values d) (snd ki) with
                      | Some l => match nth_error l (nth (snd ki) (it_indices d) 0) with
                                  | Some v => [(fst ki, VStr (vstr v))]
                                  | None => []
                                  end
                      | None => []
                      end) (it_keys d).
(** lines 35-38: the first index that can be raised is raised *)
Fixpoint it_raise (vls : list (list value)) (idx : list nat) : option (list nat) :=
  match vls, idx with
  | vl :: vls', i :: idx' =>
      if Nat.ltb (i + 1) (length vl) then Some (i + 1 :: idx')
      else match it_raise vls' idx' with Some r => Some (i :: r) | None => None end
  | _, _ => None
  end.
Fixpoint it_rest (fuel : nat) (d : iterdict) : list vars :=
  match fuel with
  | O => []
  | S fuel' => match it_raise (it_values d) (it_indices d) with
               | None => []
               | Some idx => let d' := mkIter (it_keys d) (it_values d) idx in it_asdict d' :: it_rest fuel' d'
               end
  end.
(** the dictionaries of a loop over it; every step raises one index, so the sum of the lengths
    is enough fuel *)
Definition it_dicts (d : iterdict) : list vars :=
  it_asdict d :: it_rest (fold_right (fun l n => length l + n) 0 (it_values d)) d.

(** dict.update *)
Definition dupdate (d e : vars) : vars := fold_left (fun d kv => dset streq d (fst kv) (snd kv)) e d.

(** xmltemplate.py:76-83: the variable element; [c_text] is its text *)
Definition set_variable (vs : vars) (ctx : value) (a : list (pystr * pystr)) (c_text : option pystr) : res vars :=
  do a <- processattrib vs ctx a;
  do k <- attr a (tmpl ++ lit "name");
  if (negb (dmem streq a (tmpl ++ lit "fallback")) || negb (dmem streq vs k))%bool then
    do v <- xpath vs ctx c_text;
    let v := match v with
             | VStr [] | VList [] => VStr (match dget streq a (tmpl ++ lit "default") with Some s => s | None => [] end)
             | _ => v
             end in
    Ok (dset streq vs k v)
  else Ok vs.

(** xmltemplate.py:84-88: the value element: the new text of the element it stands in. CDATA of
    None is a TypeError. *)
Definition get_value (vs : vars) (ctx : value) (a : list (pystr * pystr)) : res (option pystr) :=
  do a <- processattrib vs ctx a;
  do p <- attr a (tmpl ++ lit "path");
  do v <- xpath vs ctx (Some p);
  match asstr v with
  | None => if dmem streq a (tmpl ++ lit "cdata") then Raise TypeError else Ok None
  | t => Ok t
  end.

(** xmltemplate.py:103-107: the loop variables *)
Fixpoint loop_vars (vs : vars) (ctx : value) (items : list (pystr * pystr)) (d : iterdict) : res iterdict :=
  match items with
  | [] => Ok d
  | (k, v) :: items' =>
      match strip_prefix tmpla k with
      | Some newk => do newv <- xpath vs ctx (Some v); loop_vars vs ctx items' (it_set d newk newv)
      | None => loop_vars vs ctx items' d
      end
  end.

(** xmltemplate.py:112-114: a single result counts as a list of one *)
Definition path_nodes (v : value) : list value :=
  match v with VList l => map as_value l | _ => [v] end.

(** xmltemplate.py:115-117: a copy of the element for each node *)
Fixpoint each_node (body : value -> res (tn * vars)) (ns : list value) : res (list tn) :=
  match ns with
  | [] => Ok []
  | n :: ns' => do x <- body n; do r <- each_node body ns'; Ok (kids_of (fst x) ++ r)
  end.
(** xmltemplate.py:108-117: the turns of a loop; the variables are afterwards those of the last
    turn. [upper] are the variables before the loop. *)
Fixpoint each_turn (body : vars -> value -> res (tn * vars)) (nodes : vars -> res value) (upper vs : vars) (turns : list vars)
  : res (list tn * vars) :=
  match turns with
  | [] => Ok ([], vs)
  | d :: turns' =>
      let vs1 := dupdate upper d in
      do p <- nodes vs1;
      do here <- each_node (body vs1) (path_nodes p);
      do (rest, vs2) <- each_turn body nodes upper vs1 turns';
      Ok (here ++ rest, vs2)
  end.

(** xmltemplate.py:73-129: one child: the text of the parent, what stands in place of the child,
    and the variables afterwards. [process] is the recursive call; with nest the variables
    that it leaves are dropped (129-130). Removing a child drops the text behind it (127). *)
Definition one_kid (process : tn -> value -> vars -> res (tn * vars))
  (c : tn) (ctx : value) (vs : vars) (text : option pystr) : res (option pystr * list tn * vars) :=
  match strip_prefix tmpl (tag_of c) with
  | Some name =>
      if streq name (lit "variable") then
        do vs' <- set_variable vs ctx (attrs_of c) (text_of c); Ok (text, [], vs')
      else if streq name (lit "value") then
        do t <- get_value vs ctx (attrs_of c); Ok (t, [], vs)
      else if streq name (lit "context") then
        do a <- processattrib vs ctx (attrs_of c);
        do p <- attr a (tmpl ++ lit "path");
        do ctx' <- xpath vs ctx (Some p);
        do x <- process c ctx' vs;
        Ok (text, kids_of (fst x), vs)
      else if streq name (lit "foreach") then
        do it <- loop_vars vs ctx (attrs_of c) it_empty;
        do (out, vs') <- each_turn (fun vs1 n => process c n vs1)
                           (fun vs1 => do p <- attr (attrs_of c) (tmpl ++ lit "path"); xpath vs1 ctx (Some p))
                           vs vs (it_dicts it);
        Ok (text, out, vs')
      else Ok (text, [], vs)
  | None =>
      match kids_of c with
      | [] => Ok (text, [c], vs)
      | _ =>
          do a <- processattrib vs ctx (attrs_of c);
          do (c', vs') <- process c ctx vs;
          Ok (text, [TN (tag_of c) a (text_of c') (tail_of c) (kids_of c')], vs')
      end
  end.

(** xmltemplate.py:65-132 process, with nest False: the element and the variables afterwards *)
Fixpoint process (n : tn) (ctx : value) (vs : vars) {struct n} : res (tn * vars) :=
  match n with
  | TN tag a text tail kids =>
      do (to, vs') <-
        (fix loop (ks : list tn) (text : option pystr) (vs : vars) : res (option pystr * list tn * vars) :=
           match ks with
           | [] => Ok (text, [], vs)
           | c :: ks' =>
               do (to, vs1) <- one_kid process c ctx vs text;
               do (to', vs2) <- loop ks' (fst to) vs1;
               Ok (fst to', snd to ++ snd to', vs2)
           end) kids text vs;
      Ok (TN tag a (fst to) tail (snd to), vs')
  end.
End Template.
