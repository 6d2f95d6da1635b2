(** Model of the option maxmultigraphs of lib/sldr/ldml_exemplars.py:686-798 [process]: the loop of
    M_Exemplars with the table of possible multigraphs. *)
From Coq Require Import String.
From Verif Require Import Py M_UnicodeSets M_Exemplars.
Local Open Scope list_scope.
Local Open Scope nat_scope.

(** ldml_exemplars.py:718-721: for the lengths 4 to 1, the slice of the rest of the text *)
Definition count_prefixes (s : pystr) (d : counter) : counter :=
  fold_left (fun d k => cadd d (firstn k s, []) 1) [4; 3; 2; 1] d.

Section Loop.
  Variable u : ucd.
  Variables (preset : pystr -> bool) (maxlen : nat).
  (** ldml_exemplars.py:699-796; the slices are counted after a given multigraph is passed, and before
      the test for the end of the text *)
  Fixpoint process_multi (fuel : nat) (s : pystr) (st : pstate) (d : counter) : res (pstate * counter) :=
    match s with
    | [] => Ok (st, d)
    | _ :: _ =>
        match fuel with
        | O => Raise OutOfFuel
        | S f =>
            let '(s1, st1) :=
              match find_multi preset maxlen s with
              | Some k => (skipn k s, mkP (cadd (p_clusters st) (firstn k s, []) 1) (p_upper st) (p_lower st))
              | None => (s, st)
              end in
            let '(s2, st2) := single u s1 st1 in
            process_multi f s2 st2 (count_prefixes s1 d)
        end
    end.
End Loop.
