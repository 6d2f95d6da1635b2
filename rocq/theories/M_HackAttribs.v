(** Model of the script that adds draft levels to a schema (/repo/scripts/hackldmlattribs).
    Bytes are numbers; the file system is a dictionary of contents. *)
From Coq Require Import String.
From Verif Require Import Py.
Local Open Scope list_scope.

(** readlines() of a binary file: lines keep their newline *)
Fixpoint readlines (acc s : pystr) : list pystr :=
  match s with
  | [] => match acc with [] => [] | _ => [acc] end
  | c :: s' => if N.eqb c 10 then (acc ++ [c]) :: readlines [] s' else readlines (acc ++ [c]) s'
  end.
(** x in l, for bytes *)
Fixpoint has_sub (x l : pystr) : bool :=
  match strip_prefix x l with
  | Some _ => true
  | None => match l with [] => false | _ :: l' => has_sub x l' end
  end.
Definition mark : pystr := lit "attribute draft".
Definition levels : pystr :=
  lit "    " ++ [34%N] ++ lit "proposed" ++ [34%N] ++ lit " | " ++ [34%N] ++ lit "tentative" ++ [34%N] ++ lit " | " ++
  [34%N] ++ lit "generated" ++ [34%N] ++ lit " | " ++ [34%N] ++ lit "suspect" ++ [34%N] ++ lit " |" ++ [10%N].
(** lines 12-17 *)
Definition hack (s : pystr) : pystr :=
  flat_map (fun l => if has_sub mark l then l ++ levels else l) (readlines [] s).
(** lines 10-19: the output is opened, and so emptied, before the input; None is FileNotFoundError *)
Definition run (infile outfile : pystr) (files : list (pystr * pystr)) : list (pystr * pystr) * bool :=
  let files := dset streq files outfile [] in
  match dget streq files infile with
  | None => (files, false)
  | Some s => (dset streq files outfile (hack s), true)
  end.
