(** Model of the file of equivalent tags: LangTags.readAlltags and generate_alltags
    (/repo/lib/sldr/langtags_full.py 320-344, 480-488) and the lines that the main program
    prints from it (525-528).
    Simplifications: the file is the list of its lines, each without its newline (strip()
    removes that); opening the file, and so the IOError case and the result, is left out; the
    loop of the main program that adds the locales found on disk (508-524) is left out. *)
From Coq Require Import String.
From Verif Require Import Py M_LangTags M_Flatten.
Local Open Scope list_scope.
Local Open Scope nat_scope.

Definition STAR : N := 42%N.   (* '*' *)
Definition EQUALS : pystr := lit "=".

Section Read.
Variable ws : N -> bool.                       (* str.isspace *)
Variables lower upper title : pystr -> pystr.

(** langtags_full.py:329 [x[1:] if x.startswith("*") else x] *)
Definition unstar (x : pystr) : pystr :=
  match x with c :: r => if N.eqb c STAR then r else x | [] => x end.
(** langtags_full.py:329. strip() before split() changes nothing: split() drops white space at
    both ends. *)
Definition line_tags (l : pystr) : list pystr :=
  map unstar (filter (fun x => negb (streq x EQUALS)) (words ws l)).

(** langtags_full.py:336-339: the object [u] after one more form, parsed as [lt] *)
Definition join_form (u lt : tag) : tag :=
  if ostreq (t_lang u) (t_lang lt) then
    let lt' := if (isNone (t_script lt) && isNone (t_region lt))%bool then set_hideboth lt true else lt in
    fst (merge_equivalent u lt')
  else u.

(** langtags_full.py:334-340: the other forms of the line; [i] is the object of the line *)
Fixpoint read_forms (r : registry) (i : nat) (ts : list pystr) : res registry :=
  match ts with
  | [] => Ok r
  | t :: ts' =>
      do lt <- LangTag lower upper title t;
      read_forms (mkReg (dset streq (r_map r) t i) (upd (r_obj r) i (join_form (r_obj r i) lt))) i ts'
  end.

(** langtags_full.py:329-340: one line; [i] names the object that it makes *)
Definition read_line (r : registry) (i : nat) (l : pystr) : res registry :=
  match rev (line_tags l) with
  | [] => Raise IndexError                     (* tags.pop() *)
  | t :: ts =>
      do lt <- LangTag lower upper title t;
      read_forms (mkReg (dset streq (r_map r) t i) (upd (r_obj r) i lt)) i (rev ts)
  end.

(** langtags_full.py:328: the lines in turn *)
Fixpoint read_lines (r : registry) (i : nat) (ls : list pystr) : res registry :=
  match ls with
  | [] => Ok r
  | l :: ls' => do r1 <- read_line r i l; read_lines r1 (S i) ls'
  end.

(** langtags_full.py:309-313: LangTags starts as an empty dict *)
Definition empty_reg : registry := mkReg [] (fun _ => newtag None None None None None).
Definition read_alltags (ls : list pystr) : res registry := read_lines empty_reg 0 ls.
End Read.

(** langtags_full.py:526-527; [has] says for which forms find_file finds a file *)
Definition write_line (has : pystr -> bool) (fs : list pystr) : pystr :=
  join (lit " = ") (map (fun x => if has x then STAR :: x else x) fs).

(** langtags_full.py:480-488. Tags have no __eq__, so the set keeps one of each object;
    [order] is the order in which Python runs through it. [sorted] compares by repr
    (115-116). [skip] is False for every tag (52). *)
Definition iddedup (l : list nat) : list nat :=
  fold_left (fun acc x => if existsb (Nat.eqb x) acc then acc else acc ++ [x]) l [].
Definition generate_alltags (order : list nat -> list nat) (r : registry) : list (list pystr) :=
  map allforms (isort (fun a b => strleb (tag_repr a) (tag_repr b))
    (map (r_obj r) (order (iddedup (dvalues (r_map r)))))).

(** langtags_full.py:525-528 *)
Definition drop_stars (s : pystr) : pystr := filter (fun c => negb (N.eqb c STAR)) s.
Definition alltags_lines (has : pystr -> bool) (order : list nat -> list nat) (r : registry) : list pystr :=
  isort (fun a b => strleb (drop_stars a) (drop_stars b)) (map (write_line has) (generate_alltags order r)).
