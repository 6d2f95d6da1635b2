(** Model of the rest of scripts/fixsldr: which files are repaired (44-51), the table of English names (88-103), where the
    results go (178-181) and the pool of processes (183-190). What is done to one document is M_FixSldr. *)
From Coq Require Import String.
From Verif Require Import Py M_LdmlBase M_Serialize M_Normalise M_Drafts M_Files M_AutoNames.
Local Open Scope list_scope.
Local Open Scope nat_scope.

(** lines 44-51; [indirs]: the directories and the names in them. [given]: --locale. *)
Definition add_new (s : list pystr) (l : pystr) : list pystr := if existsb (streq l) s then s else s ++ [l].
Definition all_files (indirs : list (pystr * list pystr)) : list pystr :=
  fold_left (fun s (d : pystr * list pystr) =>
    fold_left (fun s l => if endswith (lit ".xml") l then add_new s (path_join (fst d) l) else s) (snd d) s) indirs [].
Definition to_repair (given : list pystr) (indirs : list (pystr * list pystr)) : list pystr :=
  match given with [] => isort strleb (all_files indirs) | _ => given end.

(** lines 88-103: the type and text of the languages of en.xml in each directory (None: no such file), and id and
    reference_name of the entries of the ISO file *)
Notation entries := (list (option pystr * option pystr)).
Definition names_table (ens : list (option entries)) (iso : option entries) : entries :=
  let t := fold_left (fun t en => match en with
                                  | Some l => fold_left (fun t e => dset opteq t (fst e) (snd e)) l t
                                  | None => t
                                  end) ens [] in
  match iso with
  | None => t
  | Some l => fold_left (fun t e => if dmem opteq t (fst e) then t else dset opteq t (fst e) (snd e)) l t
  end.
(** line 177: langmap.get(i, ..) in a format, None is written "None" *)
Definition name_of (t : entries) (i : pystr) : option pystr :=
  match dget opteq t (Some i) with
  | Some (Some n) => Some n
  | Some None => Some (lit "None")
  | None => None
  end.

(** lines 116-181 and 183-190. [repair] gives, for the content of the file (None: no such file, which Ldml takes for an empty
    document), an exception before the output is opened, or what is written and how writing ends. *)
Section Run.
  Variable C : Type.
  Variable repair : option C -> res (C * option exn).
  Variable outdir : option pystr.
  Notation store := (pystr -> option C).
  Definition put (s : store) (p : pystr) (c : C) : store := fun q => if streq q p then Some c else s q.
  Definition fix_one (s : store) (l : pystr) : store * option exn :=
    match repair (s l) with
    | Raise x => (s, Some x)
    | Ok (c, x) =>
        match outdir with
        | None => (s, Some TypeError)
        | Some o => (put s (path_join o (basename l)) c, x)
        end
    end.
  (** lines 188-190 *)
  Fixpoint fix_single (s : store) (ls : list pystr) : store * res unit :=
    match ls with
    | [] => (s, Ok tt)
    | l :: ls' => match fix_one s l with
                  | (s, None) => fix_single s ls'
                  | (s, Some x) => (s, Raise x)
                  end
    end.
  (** lines 183-187: a batch is what was tried and what is to do; after an exception a worker gives up the rest of its batch.
      Simplification: repairing and writing one file is one step. *)
  Definition batch : Type := (list pystr * list pystr)%type.
  Definition pool_step (P : store * list batch) (i : nat) : store * list batch :=
    match nth_error (snd P) i with
    | Some (h, l :: r) =>
        match fix_one (fst P) l with
        | (s, None) => (s, replace_nth i (h ++ [l], r) (snd P))
        | (s, Some _) => (s, replace_nth i (h ++ [l], []) (snd P))
        end
    | _ => P
    end.
  Definition fix_pool (s : store) (bs : list (list pystr)) (sched : list nat) : store * list batch :=
    fold_left pool_step sched (s, map (fun b => ([], b)) bs).
  Definition joined (P : store * list batch) : Prop := forall b, In b (snd P) -> snd b = [].
  (** the result of map_async is never asked for *)
  Definition pool_status (P : store * list batch) : res unit := Ok tt.
End Run.
