(** Model of the script that records keyboards (/repo/scripts/sldraddkeymans). *)
From Coq Require Import String.
From Verif Require Import Py M_LdmlBase M_Collation M_Serialize M_Normalise M_Drafts M_Paths.
Local Open Scope list_scope.
Local Open Scope nat_scope.

(** * The data: what the loop of lines 29-40 uses of the JSON. A missing key is None. *)
Record fontinfo := FontInfo { fi_family : option pystr; fi_source : option (list pystr) }.
Record langinfo := LangInfo { li_id : pystr; li_font : option fontinfo; li_oskfont : option fontinfo }.
Record keyboard := Keyboard { kb_id : pystr; kb_langs : list langinfo }.
Notation entry := (list (pystr * pystr)).        (* {'langtag': .., 'id': .., 'fontfamily': .., ..} *)
Notation table := (list (pystr * list entry)).

(** lines 37-40 for one of 'font', 'oskfont' *)
Definition add_font (s : pystr) (f : option fontinfo) (e : entry) : res entry :=
  match f with
  | None => Ok e
  | Some f =>
      match fi_family f with
      | None => Raise KeyError
      | Some fam =>
          match fi_source f with
          | None => Raise KeyError
          | Some [] => Raise IndexError
          | Some (src :: _) => Ok (dset streq (dset streq e (s ++ lit "family") fam) (s ++ lit "source") src)
          end
      end
  end.
(** lines 34-40. The entry is filled after it has been appended; nothing looks at it in between. *)
Definition read_lang (id : pystr) (t : table) (k : langinfo) : res table :=
  let e := [(lit "langtag", li_id k); (lit "id", id)] in
  do e <- add_font (lit "font") (li_font k) e;
  do e <- add_font (lit "oskfont") (li_oskfont k) e;
  Ok (dset streq t (li_id k) (match dget streq t (li_id k) with Some l => l | None => [] end ++ [e])).
Fixpoint foldres {X Y} (f : X -> Y -> res X) (l : list Y) (x : X) : res X :=
  match l with
  | [] => Ok x
  | y :: l' => do x <- f x y; foldres f l' x
  end.
(** lines 29-33 *)
Definition collect (data : list keyboard) : res table :=
  foldres (fun t a => foldres (read_lang (kb_id a)) (kb_langs a) t) data [].

(** sorted(results.items()): the keys are different, so only keys are compared *)
Definition by_lang (t : table) : table := isort (fun a b : pystr * list entry => strleb (fst a) (fst b)) t.

(** * The report: lines 41-48 *)
Definition fieldnames : list pystr :=
  [lit "langtag"; lit "fontfamily"; lit "fontsource"; lit "oskfamily"; lit "osksource"].
(** csv.DictWriter._dict_to_list with extrasaction="raise" and restval="" *)
Definition dict_row (e : entry) : res (list pystr) :=
  if forallb (fun k => existsb (streq k) fieldnames) (dkeys e)
  then Ok (map (fun f => match dget streq e f with Some v => v | None => [] end) fieldnames)
  else Raise ValueError.
Fixpoint write_rows (out : list (list pystr)) (l : list entry) : list (list pystr) * option exn :=
  match l with
  | [] => (out, None)
  | e :: l' => match dict_row e with
               | Ok r => write_rows (out ++ [r]) l'
               | Raise x => (out, Some x)
               end
  end.
Definition report (t : table) : list (list pystr) * option exn :=
  write_rows [fieldnames] (flat_map snd (by_lang t)).

(** * The documents: lines 92-96 *)
Definition url_path (id : pystr) : pystr :=
  lit "special/sil:external-resources/sil:kbd[@id=""" ++ id ++ lit """][@type=""kmp""]/sil:url".
Definition download (id : pystr) : pystr := lit "https://keyman.com/go/keyboard/" ++ id ++ lit "/download/kmp".

Section Keymans.
  Variable ws : N -> bool.
  Variable hasher : pystr -> Z.
  Variable m : meta.
  Variable useDrafts : bool.             (* True in this script *)
  Variable ud uid : option pystr.        (* use_draft, uid of the document *)

  Fixpoint add_keyboards (dd : pystr) (ns : list (pystr * pystr)) (ids : list pystr) (root : lnode) : res lnode :=
    match ids with
    | [] => Ok root
    | id :: ids' =>
        do r <- ensure_path ws hasher m dd useDrafts ud uid ns root [] (url_path id)
                  None (Some (lit "generated")) None None false None;
        match snd r with
        | [] => Raise IndexError
        | p :: _ =>
            match at_place (fst r) p with
            | None => Raise AttributeError                  (* not reached *)
            | Some x => add_keyboards dd ns ids' (put_at (fst r) p (set_text x (Some (download id))))
            end
        end
    end.

  (** * The files: lines 60-97. [F] is the content of a file, [load] and [save] are Ldml(fpath)
      and save_as; paths are given relative to the root of the tree. *)
  Variable F : Type.
  Variable load : F -> res (pystr * list (pystr * pystr) * lnode).
  Variable save : pystr * list (pystr * pystr) * lnode -> F.
  Variable lookup : pystr -> option pystr.   (* lookup(lang).asSldr(); None is KeyError *)
  Variable lower : N -> pystr.

  (** lines 50-58 *)
  Definition badtags : list (pystr * pystr) :=
    [(lit "yor", lit "yo"); (lit "kau", lit "kr"); (lit "ibo", lit "ig"); (lit "hau", lit "ha")].
  (** lines 62-75 *)
  Definition file_name (lang : pystr) : option pystr :=
    match lookup lang with
    | Some f => Some f
    | None => match dget streq badtags lang with
              | Some retry => lookup retry
              | None => None
              end
    end.
  (** lines 76-82; [None] inside: the language is passed over *)
  Definition file_path (files : list (pystr * F)) (fname : pystr) : res (option pystr) :=
    if dmem streq files fname then Ok (Some fname)
    else match fname with
         | [] => Raise IndexError
         | c :: _ => let p := lower c ++ [47%N] ++ fname in
                     Ok (if dmem streq files p then Some p else None)
         end.
  Definition ids_of (info : list entry) : res (list pystr) :=
    foldres (fun l e => match dget streq e (lit "id") with Some v => Ok (l ++ [v]) | None => Raise KeyError end) info [].
  Definition do_lang (dryrun : bool) (files : list (pystr * F)) (lang : pystr) (info : list entry)
    : res (list (pystr * F)) :=
    match file_name lang with
    | None => Ok files
    | Some fname =>
        do p <- file_path files fname;
        match p with
        | None => Ok files
        | Some p =>
            if dryrun then Ok files
            else match dget streq files p with
                 | None => Raise KeyError                   (* not reached *)
                 | Some c =>
                     do d <- load c;
                     let '(dd, ns, root) := d in
                     do ids <- ids_of info;
                     do root <- add_keyboards dd ns ids root;
                     Ok (dset streq files p (save (dd, ns, root)))
                 end
        end
    end.
  Fixpoint do_langs (dryrun : bool) (t : table) (files : list (pystr * F)) : list (pystr * F) * option exn :=
    match t with
    | [] => (files, None)
    | (lang, info) :: t' =>
        match do_lang dryrun files lang info with
        | Ok files => do_langs dryrun t' files
        | Raise x => (files, Some x)
        end
    end.
  (** the whole script: the report if one was written, the files, and what was raised *)
  Definition keymans (output sldr dryrun : bool) (data : list keyboard) (files : list (pystr * F))
    : option (list (list pystr)) * list (pystr * F) * option exn :=
    match collect data with
    | Raise x => (None, files, Some x)
    | Ok t =>
        let '(rep, x) := if output then let r := report t in (Some (fst r), snd r) else (None, None) in
        match x with
        | Some _ => (rep, files, x)
        | None => if sldr then let r := do_langs dryrun (by_lang t) files in (rep, fst r, snd r) else (rep, files, None)
        end
    end.
End Keymans.
