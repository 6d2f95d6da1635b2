(** Model of LangTags.readIana (/repo/lib/sldr/langtags_full.py 374-419): the registry of tags
    from the lines of the IANA subtag registry.
    Simplifications: the file is the list of its lines; the attributes mode, suppress,
    deprecated and preferred of a tag, which are set here and read nowhere, are left out (the
    lines that set them still test whether there is a tag). *)
From Coq Require Import String.
From Verif Require Import Py M_LangTags M_Collation.
Local Open Scope list_scope.
Local Open Scope nat_scope.

(** What lasts from record to record: the local [hasprefix], None when it has no value yet,
    self.variants, self.global_variants, and the registry with the next object number *)
Record ibase := mkIB {
  ib_has : option bool;
  ib_vars : list (pystr * list pystr);
  ib_glob : list (option pystr);
  ib_reg : registry;
  ib_next : nat
}.
(** The locals of a record: [mode], [currlang] and [tag], the last being None when it has no
    value yet. The tag is not in the registry before its record has ended, so it is a value. *)
Record istate := mkIS {
  is_mode : option pystr;
  is_cur : option pystr;
  is_tag : option (option tag);
  is_base : ibase
}.

Definition tag_modes : list pystr :=
  [lit "language"; lit "extlang"; lit "grandfathered"; lit "redundant"].
Definition variant : pystr := lit "variant".
Definition extlang : pystr := lit "extlang".
Definition omode (m : option pystr) (s : pystr) : bool := ostreq m (Some s).

Section Iana.
Variable ws : N -> bool.
Variable order : list pystr -> list pystr.

(** self.add(tag); None has no allforms *)
Definition put_tag (tg : option (option tag)) (b : ibase) : res ibase :=
  match tg with
  | None => Raise NameError
  | Some None => Raise AttributeError
  | Some (Some t) =>
      let n := ib_next b in
      let r := ib_reg b in
      Ok (mkIB (ib_has b) (ib_vars b) (ib_glob b)
            (fst (add order (mkReg (r_map r) (upd (r_obj r) n t)) n)) (S n))
  end.

(** langtags_full.py:385-392: the end of the record before a line with a type *)
Definition end_record (st : istate) : res ibase :=
  let b := is_base st in
  if omode (is_mode st) variant then
    match ib_has b with
    | None => Raise NameError
    | Some h => Ok (mkIB (Some false) (ib_vars b)
                      (if h then ib_glob b else ib_glob b ++ [is_cur st]) (ib_reg b) (ib_next b))
    end
  else match is_cur st with
       | None => Ok b
       | Some _ => put_tag (is_tag st) b
       end.

(** langtags_full.py:383-417: one line *)
Definition iana_line (st : istate) (l0 : pystr) : res istate :=
  let l := strip ws l0 in
  let has_tag (yes no : res istate) : res istate :=
    match is_tag st with None => Raise NameError | Some None => no | Some (Some _) => yes end in
  match strip_prefix (lit "Type: ") l with
  | Some m => do b <- end_record st; Ok (mkIS (Some m) None (Some None) b)
  | None =>
  match strip_prefix (lit "Subtag: ") l with
  | Some s =>
      if existsb (omode (is_mode st)) tag_modes
      then Ok (mkIS (is_mode st) (Some s) (Some (Some (newtag (Some s) None None None None))) (is_base st))
      else if omode (is_mode st) variant then Ok (mkIS (is_mode st) (Some s) (is_tag st) (is_base st))
      else Ok st
  | None =>
  match strip_prefix (lit "Suppress-Script: ") l, is_cur st with
  | Some sc, Some _ =>
      match is_tag st with
      | None => Raise NameError
      | Some None => Raise AttributeError
      | Some (Some t) =>
          Ok (mkIS (is_mode st) (is_cur st) (Some (Some (set_hidescript (set_script t (Some sc)) true))) (is_base st))
      end
  | _, _ =>
  (** the branches from here on test [tag] last, so that a line without the keyword does not
      need it *)
  if startswith (lit "Deprecated: ") l then has_tag (Ok st) (Ok st)
  else if startswith (lit "Preferred-Value: ") l then has_tag (Ok st) (Ok st)
  else
  match strip_prefix (lit "Prefix: ") l, omode (is_mode st) variant, is_cur st with
  | Some p, true, Some v =>
      let b := is_base st in
      let k := strip ws p in
      Ok (mkIS (is_mode st) (is_cur st) (is_tag st)
            (mkIB (Some true)
               (dset streq (ib_vars b) k ((match dget streq (ib_vars b) k with Some vs => vs | None => [] end) ++ [v]))
               (ib_glob b) (ib_reg b) (ib_next b)))
  | pre, _, _ =>
  match strip_prefix (lit "Description: ") l with
  | Some d =>
      match is_tag st with
      | None => Raise NameError
      | Some None => Ok st
      | Some (Some t) => Ok (mkIS (is_mode st) (is_cur st) (Some (Some (set_desc t (t_desc t ++ [strip ws d])))) (is_base st))
      end
  | None =>
  match pre with
  | Some p =>
      if omode (is_mode st) extlang then
        match is_tag st with
        | None => Raise NameError
        | Some None => Ok st
        | Some (Some t) =>
            match t_lang t with
            | None => Raise TypeError
            | Some lg => Ok (mkIS (is_mode st) (is_cur st) (Some (Some (set_lang t (Some (p ++ [HY] ++ lg))))) (is_base st))
            end
        end
      else Ok st
  | None => Ok st
  end end end end end end.

Fixpoint iana_lines (st : istate) (ls : list pystr) : res istate :=
  match ls with
  | [] => Ok st
  | l :: ls' => do st' <- iana_line st l; iana_lines st' ls'
  end.

(** langtags_full.py:379-382, 418-419; [r] and [n] are the registry so far and its next object *)
Definition read_iana (r : registry) (n : nat) (ls : list pystr) : res ibase :=
  do st <- iana_lines (mkIS None None None (mkIB None [] [] r n)) ls;
  match is_cur st with
  | None => Ok (is_base st)
  | Some _ => put_tag (is_tag st) (is_base st)
  end.
End Iana.
