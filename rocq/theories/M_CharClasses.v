(** Model of the classes of characters that decide how a character of an exemplar is written
    (/repo/lib/sldr/ldml_exemplars.py 81-169, 216-228). What ICU says is a parameter. *)
From Verif Require Import Py.
Open Scope N_scope.

(** the general categories of ICU asked for *)
Inductive category := NON_SPACING_MARK | COMBINING_SPACING_MARK | ENCLOSING_MARK | DECIMAL_DIGIT_NUMBER | OTHER_NUMBER
  | LETTER_NUMBER | FORMAT_CHAR | SPACE_SEPARATOR | OTHER_CATEGORY.
Definition cat_eqb (a b : category) : bool :=
  match a, b with
  | NON_SPACING_MARK, NON_SPACING_MARK | COMBINING_SPACING_MARK, COMBINING_SPACING_MARK | ENCLOSING_MARK, ENCLOSING_MARK
  | DECIMAL_DIGIT_NUMBER, DECIMAL_DIGIT_NUMBER | OTHER_NUMBER, OTHER_NUMBER | LETTER_NUMBER, LETTER_NUMBER
  | FORMAT_CHAR, FORMAT_CHAR | SPACE_SEPARATOR, SPACE_SEPARATOR | OTHER_CATEGORY, OTHER_CATEGORY => true
  | _, _ => false
  end.

(** ldml_exemplars.py:124-132 *)
Definition is_vs (c : N) : bool :=
  if (N.leb 65024 c && N.leb c 65039)%bool then true
  else if (N.leb 917760 c && N.leb c 917999)%bool then true
  else false.
(** ldml_exemplars.py:159-169 *)
Definition is_pua (c : N) : bool :=
  if (N.leb 57344 c && N.leb c 63743)%bool then true
  else if (N.leb 1048448 c && N.ltb c 1048574)%bool then true
  else if (N.leb 1113984 c && N.ltb c 1114110)%bool then true
  else false.

Section Classes.
  Variable charType : N -> category.        (* Char.charType *)
  Variable ignorable : N -> bool.           (* DEFAULT_IGNORABLE_CODE_POINT *)
  (** ldml_exemplars.py:81-90 *)
  Definition ismark (c : N) : bool :=
    (cat_eqb (charType c) NON_SPACING_MARK || cat_eqb (charType c) COMBINING_SPACING_MARK || cat_eqb (charType c) ENCLOSING_MARK)%bool.
  (** ldml_exemplars.py:134-141 *)
  Definition isnumber (c : N) : bool := (cat_eqb (charType c) DECIMAL_DIGIT_NUMBER || cat_eqb (charType c) OTHER_NUMBER)%bool.
  (** ldml_exemplars.py:143-149 *)
  Definition isformat (c : N) : bool := cat_eqb (charType c) FORMAT_CHAR.
  (** ldml_exemplars.py:151-157 *)
  Definition is_space_separator (c : N) : bool := cat_eqb (charType c) SPACE_SEPARATOR.
  (** ldml_exemplars.py:216-228 *)
  Definition need_hex_escape (c : N) (is_isolated : bool) : bool :=
    if (ismark c && is_isolated)%bool then true
    else if ignorable c then true
    else if isformat c then true
    else if is_space_separator c then true
    else if is_pua c then true
    else false.
End Classes.
