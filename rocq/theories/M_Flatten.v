(** Model of flattening and unflattening along the fallback chain: flattenlocale, flag_nonroots
    (/repo/lib/sldr/ldml_merge.py 129-132, 386-470), get_parent_locales and ReadSupplementalData
    (/repo/lib/sldr/ldml.py 741-751, 320-333). Simplifications: the document comes as an Ldml
    object (the first case of lines 413-420) with its name; resolveAlias and flattencollation
    have their default False; getldml, which reads a file, is a function from names to
    documents that is not called with the empty name (there lname[0] would be an IndexError). *)
From Coq Require Import String.
From Verif Require Import Py M_LdmlBase M_Serialize M_Normalise M_Drafts M_Collation M_Paths M_Merge.
Local Open Scope list_scope.
Local Open Scope nat_scope.

Definition root_name : pystr := lit "root".

(** [s.split()] *)
Section Words.
  Variable ws : N -> bool.
  Fixpoint words_from (acc s : pystr) : list pystr :=
    match s with
    | [] => match acc with [] => [] | _ => [acc] end
    | c :: s' => if ws c then match acc with [] => words_from [] s' | _ => acc :: words_from [] s' end
                 else words_from (acc ++ [c]) s'
    end.
  Definition words (s : pystr) : list pystr := words_from [] s.
End Words.

(** cls.parentLocales *)
Notation partable := (list (pystr * list pystr)).

(** ldml.py 325-333: a parentLocale element is its parent and its locales *)
Definition read_parents (ws : N -> bool) (ps : list (pystr * pystr)) : partable :=
  fold_left
    (fun d (p : pystr * pystr) =>
       fold_left
         (fun d l => match dget streq d l with
                     | Some v => dset streq d l (v ++ [fst p])
                     | None => dset streq d l [fst p]
                     end)
         (words ws (snd p)) d)
    ps [].

(** ldml_merge.py 394-399 (trimtag): up to the last underscore *)
Fixpoint cut_last (r : pystr) : pystr :=           (* on the reversed string *)
  match r with
  | [] => []
  | c :: r' => if N.eqb c 95 then rev r' else cut_last r'
  end.
Definition trimtag (s : pystr) : pystr := cut_last (rev s).

(** a loaded document: its root element and its namespaces *)
Record doc := mkDoc { d_root : lnode; d_ns : list (pystr * pystr) }.
Definition with_root (d : doc) (n : lnode) : doc := mkDoc n (d_ns d).

(** ldml_merge.py 129-132: ElementTree's findall *)
Definition modified_attr : pystr := siltag (lit "modified").
Definition flag_nonroots (root : lnode) : lnode :=
  set_kids root
    (map (fun cs => if streq (ltag cs) (lit "collations")
                    then set_kids cs
                           (map (fun c => if streq (ltag c) (lit "collation")
                                          then set_attrs c (dset streq (lattrs c) modified_attr (lit "true")) else c)
                              (lkids cs))
                    else cs) (lkids root)).

Inductive direction := Flatten | Unflatten | CopyOnly.       (* rev: f, r, c *)

Section Flatten.
  Variable ws : N -> bool.
  Variable hasher : pystr -> Z.
  Variable m : meta.
  Variable docs : pystr -> option doc.       (* getldml(name, dirs) *)

  (** lines 401-410 (getscript). Looking up a path does not depend on the drafts. *)
  Definition find_in (d : doc) (path : pystr) : res (option lnode) :=
    do r <- find ws hasher m [] false None None (d_ns d) (d_root d) [] path;
    Ok (match snd r with Some p => at_place (d_root d) p | None => None end).
  Definition getscript (d : doc) : res (option pystr) :=
    do l <- find_in d (lit "identity/special/sil:identity");
    match match l with Some n => lget n (lit "script") | None => None end with
    | Some s => Ok (Some s)
    | None =>
        do l <- find_in d (lit "identity/script");
        Ok (match l with Some n => lget n (lit "type") | None => None end)
    end.

  (** ldml.py 741-751. An element has no split. *)
  Definition get_parent_locales (d : doc) (table : partable) (name : pystr) : res (list pystr) :=
    if existsb (fun c => streq (ltag c) (lit "fallback")) (lkids (d_root d)) then Raise AttributeError
    else Ok (match dget streq table name with Some l => l | None => [] end).

  (** lines 425-429. The list of the table is changed in place. *)
  Definition fallbacks (d : doc) (table : partable) (name : pystr) : res (list pystr * partable) :=
    do l <- get_parent_locales d table name;
    match l with
    | [] => Ok (trimtag name :: if streq name root_name || streq (trimtag name) root_name then [] else [root_name], table)
    | _ => if memstr root_name l || streq name root_name then Ok (l, table)
           else Ok (l ++ [root_name], dset streq table name (l ++ [root_name]))
    end.

  (** lines 439-452: the loop over the truncations of one fallback, and whether to go on *)
  Fixpoint along (unflatten : bool) (ls : option pystr) (fuel : nat) (f : pystr) (l : lnode) : res (lnode * bool) :=
    match f with
    | [] => Ok (l, true)
    | _ =>
        match fuel with
        | O => Raise OutOfFuel
        | S fuel' =>
            match docs f with
            | None => along unflatten ls fuel' (trimtag f) l
            | Some o =>
                do os <- getscript o;
                if match os with None => true | Some _ => opteq os ls end then
                  if unflatten then Ok (snd (difference m (d_root o) l), false)
                  else
                    do l' <- overlay m (d_root o) (if streq f root_name then flag_nonroots l else l);
                    along unflatten ls fuel' (trimtag f) l'
                else along unflatten ls fuel' (trimtag f) l
            end
        end
    end.
  (** lines 438-453 *)
  Fixpoint apply_all (unflatten : bool) (ls : option pystr) (fs : list pystr) (l : lnode) : res lnode :=
    match fs with
    | [] => Ok l
    | f :: fs' =>
        do r <- along unflatten ls (List.length f) f l;
        if snd r then apply_all unflatten ls fs' (fst r) else Ok (fst r)
    end.

  Definition is_stub (n : lnode) : bool :=
    match lkids n with [c] => streq (ltag c) (lit "identity") | _ => false end.

  (** lines 412-470. The answer is None where Python's is. *)
  Definition flattenlocale (d : doc) (name : pystr) (dir : direction) (changed : list pystr) (skipstubs : bool)
      (table : partable) : res (option doc * partable) :=
    if (skipstubs && is_stub (d_root d))%bool then Ok (None, table)
    else
      do ls <- getscript d;
      match dir with
      | CopyOnly => Ok (Some d, table)      (* still no stub *)
      | _ =>
          do ft <- fallbacks d table name;
          let '(fs, table) := ft in
          if (match changed with [] => false | _ => true end && negb (existsb (fun f => memstr f changed) fs))%bool
          then Ok (None, table)
          else
            do l <- apply_all (match dir with Unflatten => true | _ => false end) ls fs (d_root d);
            if (skipstubs && is_stub l)%bool then Ok (None, table)
            else Ok (Some (with_root d l), table)
      end.
End Flatten.
