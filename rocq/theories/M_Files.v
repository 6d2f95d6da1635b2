(** Model of how files are found: iterate_files and getldml (/repo/lib/sldr/ldml.py 35-49).
    A directory is its files and its subdirectories, in the order in which the system lists them;
    links are not modelled. *)
From Coq Require Import String.
From Verif Require Import Py.
Local Open Scope list_scope.

Inductive dir : Type := Dir (files : list pystr) (subs : list (pystr * dir)).

(** os.path.join of two parts *)
Definition pjoin (a b : pystr) : pystr :=
  if startswith [47%N] b then b
  else match rev a with
       | [] => b
       | c :: _ => if N.eqb c 47 then a ++ b else a ++ 47%N :: b
       end.
(** os.walk(root): every directory with its path and its files, from the top *)
Fixpoint walk (path : pystr) (d : dir) : list (pystr * list pystr) :=
  match d with
  | Dir files subs =>
      (path, files) :: (fix go (l : list (pystr * dir)) : list (pystr * list pystr) :=
                          match l with
                          | [] => []
                          | (n, s) :: l' => walk (pjoin path n) s ++ go l'
                          end) subs
  end.
(** f.endswith(ext) *)
Definition endswith (ext f : pystr) : bool := startswith (rev ext) (rev f).
(** lines 35-39; a root that is not there has nothing in it *)
Definition iterate_files (root : pystr) (ext : pystr) (d : option dir) : list pystr :=
  match d with
  | None => []
  | Some d =>
      isort strleb (flat_map (fun w => map (pjoin (fst w)) (filter (endswith ext) (snd w))) (walk root d))
  end.

(** lines 41-49, the path of the document that is loaded. [there] is os.path.exists *)
Definition dashes (s : pystr) : pystr := map (fun c => if N.eqb c 45 then 95%N else c) s.
Definition candidates (lower : N -> pystr) (c : N) (loc : pystr) (indirs : list pystr) : list pystr :=
  flat_map (fun p => map (fun i => pjoin (pjoin i p) (dashes loc ++ lit ".xml")) indirs) [lit "."; lower c].
Definition getldml (lower : N -> pystr) (there : pystr -> bool) (loc : pystr) (indirs : list pystr) : res (option pystr) :=
  match loc with
  | [] => Raise IndexError
  | c :: _ => Ok (List.find there (candidates lower c loc indirs))
  end.
