(** Model of scripts/ldmlmerge: what it reads, calls and writes. Documents, their reader, merging,
    normalising, flattening and the writer are arguments (M_Serialize, M_Merge3, M_Normalise and
    M_Flatten model them); files are a dictionary of texts; a directory is not a file. *)
From Coq Require Import String.
From Verif Require Import Py M_Files.
Local Open Scope list_scope.

(** ldmlmerge:42-55 *)
Record margs : Type := MA {
  a_this : pystr; a_base : pystr; a_other : option pystr; a_output : option pystr; a_winner : option pystr;
  a_dirs : option (list pystr); a_git : bool; a_default : pystr; a_copycomments : option pystr;
  a_nogeneration : bool; a_verbose : bool }.
Definition fs : Type := list (pystr * pystr).
(** [if args.output], [if args.other], [if args.dirs] *)
Definition given (o : option pystr) : bool := match o with Some (_ :: _) => true | _ => false end.

Section Script.
  Variable D : Type.
  Variable lower : pystr -> pystr.
  (** ldml.py:414-440: a file that is missing or empty is an empty document *)
  Variable empty : option pystr -> D.                    (* with the winner *)
  Variable read : option pystr -> pystr -> res D.        (* the winner and the text of a file *)
  Definition LdmlMerge (winner : option pystr) (files : fs) (f : pystr) : res D :=
    match dget streq files f with
    | None | Some [] => Ok (empty winner)
    | Some text => read winner text
    end.
  Variable flatten : D -> list pystr -> pystr -> res D.  (* flattenlocale with rev='f' *)
  Variable unflatten : D -> option (list pystr) -> pystr -> res D. (* ... with rev='r' *)
  Variable revid_of : D -> option pystr.                 (* lines 63-66 *)
  Variable git_show : pystr -> res pystr.                (* check_output: bytes *)
  Variable merge : D -> option D -> D -> pystr -> option pystr -> res (D * bool).
  Variable has_generation has_identity : D -> bool.      (* find("./identity/generation"), find("./identity") *)
  Variable normalise : bool -> D -> res D.
  Variable drop_ids : D -> D.                            (* lines 100-103 *)
  Variable text_of : D -> pystr * option exn.            (* serialize_xml: what it writes, and its exception *)

  (** lines 34-40; a missing list of directories cannot be gone through *)
  Definition exists_file (files : fs) (f : pystr) : bool := match dget streq files f with Some _ => true | None => false end.
  Fixpoint find_in (files : fs) (fname : pystr) (dirs : list pystr) : res (option pystr) :=
    match dirs with
    | [] => Ok None
    | d :: dirs' =>
        if exists_file files (pjoin d fname) then Ok (Some (pjoin d fname)) else
        match fname with
        | [] => Raise IndexError
        | c :: _ =>
            let f := pjoin (pjoin d (lower [c])) fname in
            if exists_file files f then Ok (Some f) else find_in files fname dirs'
        end
    end.
  Definition find_ldml (files : fs) (fname : pystr) (dirs : option (list pystr)) : res (option pystr) :=
    match dirs with None => Raise TypeError | Some l => find_in files fname l end.
  (** io.StringIO takes a str; what git gives is bytes *)
  Definition StringIO_of_bytes (b : pystr) : res D := Raise TypeError.
  (** lines 61-77: the base, unbound if there is no revid, and the other *)
  Definition git_docs (a : margs) (files : fs) (this : D) : res (option D * option D) :=
    match revid_of this with
    | None => Ok (None, None)
    | Some revid =>
        do fpath <- find_ldml files (a_base a) (a_dirs a);
        match fpath with
        | None => Raise TypeError                        (* str + list *)
        | Some f =>
            do s <- git_show (revid ++ lit ":" ++ f);
            do base <- StringIO_of_bytes s;
            Ok (Some base, None)
        end
    end.
  (** lines 78-81 *)
  Definition file_docs (a : margs) (files : fs) : res (option D * option D) :=
    do base <- LdmlMerge None files (a_base a);
    match a_other a with
    | Some (c :: o) => do other <- LdmlMerge None files (c :: o); Ok (Some base, Some other)
    | _ => Ok (Some base, None)
    end.
  (** lines 83-85: the attributes of None *)
  Definition verbose (a : margs) (base other : option D) : res unit :=
    if a_verbose a then
      match base, other with
      | None, _ => Raise NameError
      | Some _, None => Raise AttributeError
      | Some _, Some _ => Ok tt
      end
    else Ok tt.
  (** lines 86-95: the new element is made and not attached, the date is not set *)
  Definition generation (a : margs) (changed : bool) (this : D) : res D :=
    if (changed && negb (a_nogeneration a))%bool then
      if has_generation this then Ok this
      else if has_identity this then Ok this else Raise AttributeError
    else Ok this.
  (** lines 57-104 *)
  Definition prepare (a : margs) (files : fs) : res D :=
    do this <- LdmlMerge (a_winner a) files (a_this a);
    do this <- match a_dirs a with Some (d :: ds) => flatten this (d :: ds) (a_this a) | _ => Ok this end;
    do docs <- if a_git a then git_docs a files this else file_docs a files;
    do _u <- verbose a (fst docs) (snd docs);
    match fst docs with
    | None => Raise NameError
    | Some base =>
        do m <- merge this (snd docs) base (a_default a) (a_copycomments a);
        do this <- generation a (snd m) (fst m);
        do this <- normalise false this;
        if a_git a then unflatten (drop_ids this) (a_dirs a) (a_this a) else Ok this
    end.
  (** lines 106-117: the output is opened, which empties it, before it is normalised again. The result
      is the files, what is printed, and the exception. Without an output line 96 has put an encoder
      before the screen: it gives bytes to a stream of text, so the first write is a TypeError *)
  Definition ldmlmerge (a : margs) (files : fs) : fs * pystr * option exn :=
    match prepare a files with
    | Raise e => (files, [], Some e)
    | Ok this =>
        let r := match normalise true this with Ok t => text_of t | Raise e => ([], Some e) end in
        match a_output a with
        | Some (c :: o) => (dset streq files (c :: o) (fst r), [], snd r)
        | _ => (files, [], Some (match r with ([], Some e) => e | _ => TypeError end))
        end
    end.
End Script.
