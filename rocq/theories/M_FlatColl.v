(** Model of [Ldml.flatten_collation], lib/sldr/ldml.py 953-957: replacing the [import]
    statements of a collation tailoring by the tailorings they name.
    [ws] is the white space of the regular expression class \s, a parameter.
    The import function is a parameter too; it may raise. *)
From Coq Require Import String.
From Verif Require Import Py M_Collation M_UnicodeSets.
Local Open Scope list_scope.
Local Open Scope nat_scope.

Section FlatColl.
  Variable ws : N -> bool.

  (** ldml.py:957, the part [(?P<coll>.*?)\s*\]] of the pattern, anchored at the start of [s]:
      the lazy group takes one more character (not a newline) as long as what follows is not
      white space and a closing bracket. Gives the group and the text after the bracket. *)
  Fixpoint coll_at (s : pystr) : option (pystr * pystr) :=
    match lstrip ws s with
    | 93%N :: rest => Some ([], rest)
    | _ => match s with
           | [] => None
           | c :: s' =>
               if N.eqb c 10 then None
               else match coll_at s' with
                    | Some (g, rest) => Some (c :: g, rest)
                    | None => None
                    end
           end
    end.

  (** ldml.py:957, the part [(?P<lang>.*?)-u-co-] and what follows it, anchored. *)
  Fixpoint lang_at (s : pystr) : option (pystr * pystr * pystr) :=
    match match strip_prefix (lit "-u-co-") s with Some r => coll_at r | None => None end with
    | Some (coll, rest) => Some ([], coll, rest)
    | None => match s with
              | [] => None
              | c :: s' =>
                  if N.eqb c 10 then None
                  else match lang_at s' with
                       | Some (g, coll, rest) => Some (c :: g, coll, rest)
                       | None => None
                       end
              end
    end.

  (** ldml.py:957, the whole pattern anchored at the start of [s]: number of characters
      matched and the two groups. The greedy \s* takes all the white space there is: giving
      some of it back would put it into the group [lang], and could not help the rest of the
      pattern to match, since neither a hyphen nor a closing bracket is white space. *)
  Definition import_at (s : pystr) : option (nat * pystr * pystr) :=
    match strip_prefix (lit "[import") s with
    | Some r => match lang_at (lstrip ws r) with
                | Some (lang, coll, rest) => Some (List.length s - List.length rest, lang, coll)
                | None => None
                end
    | None => None
    end.

  Variable importfn : pystr -> pystr -> res pystr.

  (** ldml.py:953-957. [depth] bounds the nesting of calls. *)
  Fixpoint flatten_coll (depth : nat) (s : pystr) : res pystr :=
    match depth with
    | O => Raise OutOfFuel
    | S d =>
        resub (fun s' => match import_at s' with
                         | Some (n, lang, coll) => Some (n, do t <- importfn lang coll; flatten_coll d t)
                         | None => None
                         end) 0 s
    end.
End FlatColl.
