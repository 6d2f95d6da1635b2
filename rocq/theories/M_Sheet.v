(** Model of the reading and writing of rows of an ODS spreadsheet, lib/sldr/sheet.py:
    the row loop of [_odssetup] (72-96) and [_writeodsitem] (143-177).
    A row is the list of its child nodes. The ODF library is modelled by what the code asks
    of it: the tag, the attribute numbercolumnsrepeated (absent, or an integer), the child
    nodes. Styles and other attributes are left out. *)
From Coq Require Import String.
From Verif Require Import Py.
Local Open Scope list_scope.
Local Open Scope Z_scope.

(** content of a paragraph: text nodes, and other nodes such as spans *)
Inductive inline := Txt (s : pystr) | Inline.
(** a child node of a cell: a paragraph text:p ([true]) or another element *)
Inductive para := Para (is_p : bool) (kids : list inline).
(** a child node of a row: a table:table-cell, or another one such as a covered cell *)
Record rnode := mkR { n_cell : bool; n_rep : option Z; n_kids : list para }.

(** sheet.py:77-79, 151-152: no attribute (or an empty one) counts once *)
Definition repcount (n : rnode) : Z := match n_rep n with Some z => z | None => 1 end.

(** sheet.py:84-91: the first text node of the first paragraph *)
Fixpoint first_txt (l : list inline) : pystr :=
  match l with [] => [] | Txt s :: _ => s | Inline :: l' => first_txt l' end.
Fixpoint cell_text (l : list para) : pystr :=
  match l with
  | [] => []
  | Para false _ :: l' => cell_text l'
  | Para true ks :: _ => first_txt ks
  end.

(** sheet.py:75-93: one child node of the row; a count of ten or more is taken as one *)
Definition read_node (n : rnode) : list pystr :=
  if n_cell n then
    let count := match n_rep n with
                 | Some z => if z <? 10 then z else 1
                 | None => 1
                 end in
    repeat (cell_text (n_kids n)) (Z.to_nat count)
  else [].
(** sheet.py:73-95: the row without its first column *)
Definition read_row (row : list rnode) : list pystr := tl (flat_map read_node row).

(** sheet.py:149-156: the loop that looks for the column. [Some] when it breaks: the nodes
    before, the cell, the nodes after and the columns before the cell. *)
Fixpoint locate (target cur : Z) (pre row : list rnode) : option (list rnode * rnode * list rnode * Z) :=
  match row with
  | [] => None
  | n :: row' =>
      if n_cell n then
        if target <=? cur + repcount n then Some (pre, n, row', cur)
        else locate target (cur + repcount n) (pre ++ [n]) row'
      else locate target cur (pre ++ [n]) row'
  end.
(** the columns of the whole row, and the count of its last cell: the values left in
    [curcol] and [repcount] when the loop runs to its end *)
Definition width (row : list rnode) : Z :=
  fold_left (fun a n => if n_cell n then a + repcount n else a) row 0.
Definition last_count (row : list rnode) : option Z :=
  fold_left (fun a n => if n_cell n then Some (repcount n) else a) row None.

(** sheet.py:173-177: [c.firstChild.firstChild.data = value], or a new paragraph. Setting
    [data] on a node that is not text has no effect on the document. *)
Definition set_value (kids : list para) (v : pystr) : res (list para) :=
  match kids with
  | [] => Ok [Para true [Txt v]]
  | Para p (Txt _ :: r) :: ps => Ok (Para p (Txt v :: r) :: ps)
  | Para _ (Inline :: _) :: _ => Ok kids
  | Para _ [] :: _ => Raise AttributeError
  end.

(** sheet.py:158-177 *)
Definition empty_cells (count : Z) : rnode := mkR true (Some count) [].
Definition put (pre : list rnode) (c : rnode) (post : list rnode) (cur rep target : Z) (v : pystr) : res (list rnode) :=
  let countbefore := target - cur - 1 in
  let countafter := cur + rep - target in
  let r1 := if 0 <? countbefore then Some (countafter + 1) else n_rep c in
  let r2 := if 0 <? countafter then Some 1 else r1 in
  do ks <- set_value (n_kids c) v;
  Ok (pre ++ (if 0 <? countbefore then [empty_cells countbefore] else []) ++
      [mkR (n_cell c) r2 ks] ++
      (if 0 <? countafter then [empty_cells countafter] else []) ++ post).

(** sheet.py:143-177. When the loop does not find the column, [c] is the last child node of
    the row. A row without child nodes, or without cells, leaves a variable unset. *)
Definition write_item (row : list rnode) (target : Z) (v : pystr) : res (list rnode) :=
  match locate target 0 [] row with
  | Some (pre, c, post, cur) => put pre c post cur (repcount c) target v
  | None =>
      match rev row, last_count row with
      | c :: pre, Some rep => put (rev pre) c [] (width row) rep target v
      | _, _ => Raise NameError
      end
  end.
