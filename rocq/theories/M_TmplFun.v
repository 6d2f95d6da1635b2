(** Model of the functions that paths in templates may call (/repo/lib/sldr/xmltemplate.py 164-200).
    Simplifications: of the nodes given to a function only their texts matter; regular expressions
    are a function; the white space of str.split is a function [ws]. *)
From Coq Require Import String ZArith.
From Verif Require Import Py.
Local Open Scope list_scope.

(** an argument as lxml gives it: a string, the texts of a set of nodes (None for an element
    without text), a number, here what int() makes of it (None: not a number, infinity) and
    whether it is true, or a truth value *)
Inductive xarg := XStr (s : pystr) | XNodes (l : list (option pystr)) | XNum (z : option Z) (t : bool) | XBool (b : bool).
(** a result: a string, words, an argument handed on, or None, which lxml makes an empty set *)
Inductive xret := RText (s : pystr) | RWords (l : list pystr) | RArg (a : xarg) | RNone.

(** xmltemplate.py:42-49; a number has no len() *)
Definition asstr (a : xarg) : res (option pystr) :=
  match a with
  | XStr s => Ok (Some s)
  | XNodes [] => Ok (Some [])
  | XNodes (t :: _) => Ok t
  | XNum _ _ | XBool _ => Raise TypeError
  end.

Section Fun.
  Variable ws : N -> bool.
  (** str.split() *)
  Fixpoint split_words (acc s : pystr) : list pystr :=
    match s with
    | [] => match acc with [] => [] | _ => [acc] end
    | c :: s' => if ws c then match acc with [] => split_words [] s' | _ => acc :: split_words [] s' end
                 else split_words (acc ++ [c]) s'
    end.
  (** None has no split *)
  Definition py_split (t : option pystr) : res (list pystr) :=
    match t with Some s => Ok (split_words [] s) | None => Raise AttributeError end.
  (** l[i] *)
  Definition py_at {X} (l : list X) (i : Z) : res X :=
    let j := if Z.ltb i 0 then (i + Z.of_nat (length l))%Z else i in
    if Z.ltb j 0 then Raise IndexError
    else match nth_error l (Z.to_nat j) with Some x => Ok x | None => Raise IndexError end.
  (** xmltemplate.py:164-167 *)
  Definition fn_firstword (txt : xarg) : res xret :=
    do t <- asstr txt;
    match t with
    | Some [] => Ok (RText [])
    | t => do l <- py_split t; do w <- py_at l 0; Ok (RText w)
    end.
  (** int(index); [num] is int() of a string. XBool: int(True) is 1 *)
  Variable num : pystr -> option Z.
  Definition py_int (a : xarg) : res Z :=
    match a with
    | XNum (Some z) _ => Ok z
    | XNum None _ => Raise ValueError
    | XStr s => match num s with Some z => Ok z | None => Raise ValueError end
    | XBool b => Ok (if b then 1 else 0)%Z
    | XNodes _ => Raise TypeError
    end.
  (** xmltemplate.py:169-172; the words are made before the index is read *)
  Definition fn_findsep (val index : xarg) : res xret :=
    do t <- asstr val;
    match t with
    | Some [] => Ok (RText [])
    | t => do l <- py_split t; do i <- py_int index; do w <- py_at l i; Ok (RText w)
    end.
  (** xmltemplate.py:188-189 *)
  Definition truth (a : xarg) : bool :=
    match a with
    | XStr s => match s with [] => false | _ => true end
    | XNodes l => match l with [] => false | _ => true end
    | XNum _ t => t
    | XBool b => b
    end.
  Definition fn_choose (test a b : xarg) : res xret := Ok (RArg (if truth test then a else b)).
  (** xmltemplate.py:191-193 *)
  Definition fn_split (txt : xarg) : res xret :=
    do t <- asstr txt; do l <- py_split t; Ok (RWords l).
  (** xmltemplate.py:195-200 *)
  Fixpoint fn_default (vals : list xarg) : res xret :=
    match vals with
    | [] => Ok (RText [])
    | v :: vals' =>
        do x <- asstr v;
        match x with
        | Some [] => fn_default vals'
        | Some s => Ok (RText s)
        | None => Ok RNone
        end
    end.
End Fun.
