(** Model of the script that normalises a file or a tree of files (/repo/scripts/ldmlnormalize).
    Parameters: [load] and [save] are Ldml(path) and save_as, [valid] is the validation of a file,
    [writable] whether a path can be opened for writing. *)
From Coq Require Import String.
From Verif Require Import Py M_Files.
Local Open Scope list_scope.

(** why the script stops: NotADirectoryError, FileNotFoundError of the output, DocumentInvalid *)
Inductive stop := NotDir | NoOut | Invalid.
(** os.listdir of the input: the name of a file, or of a directory with the names in it *)
Notation listing := (list (pystr * option (list pystr))).
Definition wanted (p : pystr) : bool := (endswith (lit ".xml") p || endswith (lit ".ldml") p)%bool.

(** lines 18-30; None is an exception of os.listdir of a file *)
Fixpoint pairs (inroot outroot : pystr) (l : listing) : option (list (pystr * pystr)) :=
  match l with
  | [] => Some []
  | (d, k) :: l' =>
      let di := pjoin inroot d in
      let do_ := pjoin outroot d in
      if wanted di then option_map (cons (di, do_)) (pairs inroot outroot l')
      else match k with
           | None => None
           | Some fs =>
               option_map (app (filter (fun p => wanted (fst p)) (map (fun f => (pjoin di f, pjoin do_ f)) fs))) (pairs inroot outroot l')
           end
  end.

Section Batch.
  Variables F D : Type.
  Variable load : F -> res D.
  Variable save : D -> F.
  Variable valid : F -> bool.
  Variable writable : pystr -> bool.
  Variable validate : bool.
  (** lines 32-44; a path that is not a file is an exception of Ldml, like one that cannot be read *)
  Fixpoint batch (ps : list (pystr * pystr)) (files : list (pystr * F)) : list (pystr * F) * option stop :=
    match ps with
    | [] => (files, None)
    | (fi, fo) :: ps' =>
        match dget streq files fi with
        | None => batch ps' files
        | Some c =>
            match load c with
            | Raise _ => batch ps' files
            | Ok d =>
                if writable fo then
                  let files := dset streq files fo (save d) in
                  if validate then
                    if match dget streq files fi with Some c => valid c | None => false end
                    then batch ps' files else (files, Some Invalid)
                  else batch ps' files
                else (files, Some NoOut)
            end
        end
    end.
  (** lines 12-44. [what]: None for a file, otherwise the listing of the directory; [outfile] as given *)
  Definition normalize (infile : pystr) (outfile : option pystr) (what : option listing) (files : list (pystr * F))
    : list (pystr * F) * option stop :=
    let out := match outfile with Some (c :: o) => c :: o | _ => infile end in
    match what with
    | None => batch [(infile, out)] files
    | Some l => match pairs infile out l with
                | None => (files, Some NotDir)
                | Some ps => batch ps files
                end
    end.
End Batch.
