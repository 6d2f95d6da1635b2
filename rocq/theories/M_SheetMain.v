(** Model of scripts/sheetldml and of the parts of lib/sldr/sheet.py that connect it to the rows
    (M_SheetProc) and cells (M_Sheet): Sheet.__init__ (43-63), the choice of sheets and rows in
    _odssetup (65-72, 94-97), _nexttsvrow (99-103), the writing of cells while the rows are
    read, writeldml and writeods (222-227). *)
From Coq Require Import String.
From Verif Require Import Py M_LdmlBase M_Sheet M_SheetProc.
Local Open Scope list_scope.
Local Open Scope nat_scope.

(** A child node of a table: a table:table-row with its nodes, or another one (columns, groups). *)
Inductive tnode := Row (cells : list rnode) | Other.
(** A child node of the spreadsheet: is it a table:table, its name, its child nodes. *)
Record sheet := mkS { s_table : bool; s_name : option pystr; s_nodes : list tnode }.

(** sheet.py:69-70 *)
Definition sheet_names : list pystr := [lit "Core"; lit "Posix"; lit "Minimal"; lit "Basic"].
Definition read_sheet (s : sheet) : bool :=
  s_table s && match s_name s with Some n => memstr n sheet_names | None => false end.
(** sheet.py:68-95: the rows that the generator yields *)
Definition node_rows (n : tnode) : list (list pystr) :=
  match n with Row cells => [read_row cells] | Other => [] end.
Definition ods_rows (doc : list sheet) : list (list pystr) :=
  flat_map (fun s => if read_sheet s then flat_map node_rows (s_nodes s) else []) doc.
(** sheet.py:99-103: rows of the file without the first column *)
Definition tsv_rows (rows : list (list pystr)) : list (list pystr) := map (@tl pystr) rows.

(** ** To a spreadsheet (lines 51-56, 179-220): the cells of a row are written while the generator stands at it *)
Section Ods.
  Variable find : pystr -> option found.
  (** [put row col value]: _writeodsitem (M_Sheet.write_item for a value that is a text) *)
  Variable put : list rnode -> nat -> option pystr -> res (list rnode).

  Fixpoint put_all (ws : list (nat * option pystr)) (row : list rnode) : res (list rnode) :=
    match ws with
    | [] => Ok row
    | (col, v) :: ws' => do row' <- put row col v; put_all ws' row'
    end.
  Fixpoint nodes_run (m : mode) (nodes : list tnode) : res (mode * list tnode) :=
    match nodes with
    | [] => Ok (m, [])
    | Other :: nodes' => do r <- nodes_run m nodes'; Ok (fst r, Other :: snd r)
    | Row cells :: nodes' =>
        do mj <- step_row m (read_row cells);
        do cells' <- put_all (flat_map (ods_writes find) (snd mj)) cells;
        do r <- nodes_run (fst mj) nodes';
        Ok (fst r, Row cells' :: snd r)
    end.
  Fixpoint doc_run (m : mode) (doc : list sheet) : res (list sheet) :=
    match doc with
    | [] => Ok []
    | s :: doc' =>
        if read_sheet s then
          do r <- nodes_run m (s_nodes s);
          do d <- doc_run (fst r) doc';
          Ok (mkS (s_table s) (s_name s) (snd r) :: d)
        else do d <- doc_run m doc'; Ok (s :: d)
    end.
End Ods.

(** ** The script *)
(** the command line (scripts/sheetldml 13-19) *)
Record args := { a_sheet : pystr; a_ldml : pystr; a_tsv : bool; a_output : option pystr }.
(** how it ends: well, with sys.exit(2), with an exception *)
Inductive outcome := Done | ExitTwo | Failed.

Section Main.
  (** files: their content by name. What is in them is read and written by csv, odfpy and Ldml,
      which are arguments here. Writing a file always works. *)
  Variables file doc_ldml : Type.
  Variable read_tsv : file -> res (list (list pystr)).
  Variable load_ods : file -> res (list sheet).
  Variable read_ldml : file -> res doc_ldml.            (* a file of size 0 is as Ldml(None) *)
  Variable empty_ldml : doc_ldml.                       (* Ldml(None) *)
  Variable ensure : doc_ldml -> write -> res doc_ldml.  (* _writeldmlitem, lines 105-110 *)
  Variable find : doc_ldml -> pystr -> option found.
  Variable put : list rnode -> nat -> option pystr -> res (list rnode).
  Variable normalise : doc_ldml -> res doc_ldml.
  Variable ldml_file : doc_ldml -> res file.            (* serialize_xml *)
  Variable ods_file : list sheet -> file.               (* self.ods.save *)
  Notation files := (list (pystr * file)).

  Fixpoint ensure_all (l : doc_ldml) (ws : list write) : res doc_ldml :=
    match ws with [] => Ok l | w :: ws' => do l' <- ensure l w; ensure_all l' ws' end.
  Definition open_file (fs : files) (name : pystr) : res file :=
    match dget streq fs name with Some f => Ok f | None => Raise KeyError end.    (* FileNotFoundError *)
  Definition truthy (o : option pystr) : option pystr := match o with Some [] | None => None | _ => o end.
  (** the rows to put into LDML: lines 44-49, 230 *)
  Definition input_rows (a : args) (fs : files) : res (list (list pystr)) :=
    match a_sheet a with
    | [] => Raise AttributeError                         (* neither input nor nextrow is set *)
    | _ => do f <- open_file fs (a_sheet a);
           if a_tsv a then do rows <- read_tsv f; Ok (tsv_rows rows)
           else do d <- load_ods f; Ok (ods_rows d)
    end.
  (** scripts/sheetldml 31-56. The file for LDML is opened, and with it made empty, before it is
      written (save_as): an error while writing leaves it without its whole content, here [None]. *)
  Definition sheetldml (a : args) (fs : files) : outcome * option (pystr * option file) :=
    match truthy (a_output a) with
    | Some out =>
        if a_tsv a then (ExitTwo, None)
        else match (do l <- match a_ldml a with
                            | [] => Ok empty_ldml
                            | n => match dget streq fs n with
                                   | Some f => read_ldml f
                                   | None => Ok empty_ldml   (* ldml.py:424-430, no error *)
                                   end
                            end;
                    do f <- match a_sheet a with [] => Raise AttributeError | n => open_file fs n end;
                    do d <- load_ods f;
                    match a_ldml a with
                    | [] => (* an empty name is no LDML input: the actions are those that fill the LDML *)
                        let '(js, e) := process 0 Top (ods_rows d) in
                        do _ <- ensure_all l (flat_map (fun j => ldml_writes (snd j)) js);
                        match e with Some e => Raise e | None => Ok d end
                    | _ => doc_run (find l) put Top d
                    end) with
             | Ok d' => (Done, Some (out, Some (ods_file d')))
             | Raise _ => (Failed, None)
             end
    | None =>
        match (do rows <- input_rows a fs;
               let '(js, e) := process 0 Top rows in
               do l <- ensure_all empty_ldml (flat_map (fun j => ldml_writes (snd j)) js);
               match e with Some e => Raise e | None => Ok l end) with
        | Raise _ => (Failed, None)
        | Ok l => match a_ldml a with
                  | [] => (Done, None)                   (* if ldmloutputfile: *)
                  | n => match normalise l with
                         | Ok l' => match ldml_file l' with
                                    | Ok f => (Done, Some (n, Some f))
                                    | Raise _ => (Failed, Some (n, None))
                                    end
                         | Raise _ => (Failed, None)     (* writeldml: before the file is opened *)
                         end
                  end
        end
    end.
  (** the files afterwards *)
  Definition after (fs : files) (w : option (pystr * option file)) (name : pystr) : option (option file) :=
    match w with
    | Some (n, f) => if streq name n then Some f
                     else match dget streq fs name with Some f => Some (Some f) | None => None end
    | None => match dget streq fs name with Some f => Some (Some f) | None => None end
    end.
End Main.
