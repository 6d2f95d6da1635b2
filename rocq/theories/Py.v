(** Python vocabulary shared by the models.
    This file models the Python run time, not a file of /repo: strings, exceptions,
    dictionaries, list slices, stable sorting. *)
From Coq Require Export List Arith NArith ZArith Bool Lia.
From Coq Require Import Ascii String.
From Coq Require Export Permutation Sorted.
Export ListNotations. Export StringSyntax.
Open Scope list_scope.

(** A Python [str]: the list of its code points. *)
Notation pystr := (list N).

(** ASCII literals. *)
Definition lit (s : String.string) : pystr :=
  List.map Ascii.N_of_ascii (String.list_ascii_of_string s).
Arguments lit s%string_scope.

(** Exceptions as values. [OutOfFuel] is not a Python exception: it marks a loop of the
    model that was cut short, and theorems exclude it. *)
Inductive exn : Type :=
| KeyError | IndexError | ValueError | AttributeError | TypeError | NameError
| AssertionError | SyntaxErr | RecursionError | OutOfFuel.

Inductive res (A : Type) : Type := Ok (a : A) | Raise (e : exn).
Arguments Ok {A} a.
Arguments Raise {A} e.

Definition bind {A B} (r : res A) (f : A -> res B) : res B :=
  match r with Ok a => f a | Raise e => Raise e end.
Notation "'do' x <- r ; f" := (bind r (fun x => f))
  (at level 200, x pattern, r at level 100, f at level 200, right associativity).

(** Equality of strings. *)
Fixpoint streq (a b : pystr) : bool :=
  match a, b with
  | [], [] => true
  | x :: a', y :: b' => N.eqb x y && streq a' b'
  | _, _ => false
  end.

(** [x in s] for a single character. *)
Definition inchars (c : N) (s : pystr) : bool := existsb (N.eqb c) s.

(** Lexicographic comparison of lists, as Python compares lists, tuples and str. *)
Fixpoint lcmp {A} (cmp : A -> A -> comparison) (a b : list A) : comparison :=
  match a, b with
  | [], [] => Eq
  | [], _ :: _ => Lt
  | _ :: _, [] => Gt
  | x :: a', y :: b' =>
      match cmp x y with Eq => lcmp cmp a' b' | c => c end
  end.

Definition strcmp : pystr -> pystr -> comparison := lcmp N.compare.
Definition strleb (a b : pystr) : bool :=
  match strcmp a b with Gt => false | _ => true end.

(** Dictionaries in insertion order. *)
Section Dict.
  Context {K V : Type} (eqb : K -> K -> bool).
  Fixpoint dget (d : list (K * V)) (k : K) : option V :=
    match d with
    | [] => None
    | (k', v) :: d' => if eqb k k' then Some v else dget d' k
    end.
  Definition dmem (d : list (K * V)) (k : K) : bool :=
    match dget d k with Some _ => true | None => false end.
  Fixpoint dset (d : list (K * V)) (k : K) (v : V) : list (K * V) :=
    match d with
    | [] => [(k, v)]
    | (k', v') :: d' => if eqb k k' then (k', v) :: d' else (k', v') :: dset d' k v
    end.
  Fixpoint ddel (d : list (K * V)) (k : K) : list (K * V) :=
    match d with
    | [] => []
    | (k', v') :: d' => if eqb k k' then d' else (k', v') :: ddel d' k
    end.
  Definition dkeys (d : list (K * V)) : list K := map fst d.
  Definition dvalues (d : list (K * V)) : list V := map snd d.
End Dict.

(** Stable insertion sort: the behaviour of [sorted] and [list.sort]. [leb] is [<=] on keys. *)
Section Sort.
  Context {A : Type} (leb : A -> A -> bool).
  Fixpoint insert (x : A) (l : list A) : list A :=
    match l with
    | [] => [x]
    | y :: l' => if leb x y then x :: l else y :: insert x l'
    end.
  Fixpoint isort (l : list A) : list A :=
    match l with
    | [] => []
    | x :: l' => insert x (isort l')
    end.
End Sort.

(** [s.split(c)] for a single separator character. Never empty. *)
Fixpoint split_on (c : N) (s : pystr) : list pystr :=
  match s with
  | [] => [[]]
  | x :: s' =>
      if N.eqb x c then [] :: split_on c s'
      else match split_on c s' with
           | [] => [[x]]
           | h :: t => (x :: h) :: t
           end
  end.

(** [c.join(l)] for a separator string. *)
Fixpoint join (sep : pystr) (l : list pystr) : pystr :=
  match l with
  | [] => []
  | [x] => x
  | x :: l' => x ++ sep ++ join sep l'
  end.

(** [s.startswith(p)], and the remainder after a prefix. *)
Fixpoint strip_prefix (p s : pystr) : option pystr :=
  match p, s with
  | [], _ => Some s
  | x :: p', y :: s' => if N.eqb x y then strip_prefix p' s' else None
  | _ :: _, [] => None
  end.
Definition startswith (p s : pystr) : bool :=
  match strip_prefix p s with Some _ => true | None => false end.

(** Characters class tests on ASCII. *)
Definition is_digit (c : N) : bool := (N.leb 48 c && N.leb c 57)%bool.
Definition is_upper_hex (c : N) : bool := (is_digit c || (N.leb 65 c && N.leb c 70))%bool.
Definition is_hex (c : N) : bool := (is_upper_hex c || (N.leb 97 c && N.leb c 102))%bool.
Definition hexval (c : N) : N :=
  if is_digit c then c - 48
  else if (N.leb 65 c && N.leb c 70)%bool then c - 55
  else c - 87.
(** [int(s, 16)] on a string of hex digits. *)
Definition hexnum (s : pystr) : N := fold_left (fun a c => 16 * a + hexval c)%N s 0%N.

(** Lower case hex digit. *)
Definition hexdig (d : N) : N := if N.ltb d 10 then (48 + d)%N else (87 + d)%N.
(** the [n] low hex digits of [v], most significant first, lower case:
    '{:0nx}'.format(v) when v < 16^n. *)
Fixpoint hexpad (n : nat) (v : N) : pystr :=
  match n with
  | O => []
  | S n' => hexpad n' (v / 16) ++ [hexdig (v mod 16)]
  end.
