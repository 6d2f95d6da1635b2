(** Model of scripts/cldrimport (48-138): the locales of a CLDR tree, one merged file for each of them, removal of files.
    Directories are dictionaries. Reading, overlaying and normalising documents, and writing them out, are parameters
    (overlay: M_Merge; normalise: M_Normalise; the writer: M_Writer). Not modelled: directories that cannot be made or
    files that cannot be opened. *)
From Verif Require Import Py.
Local Open Scope nat_scope.

(** cldrimport:48 *)
Definition subdirs : list pystr := [lit "main"; lit "collation"; lit "casing"; lit "segments"].
Definition dotxml : pystr := lit ".xml".
(** cldrimport:56, 66: l[-4:].lower() == '.xml'; only ASCII characters have x, m and l as their lower case *)
Definition low (c : N) : N := if (N.leb 65 c && N.leb c 90)%bool then N.add c 32 else c.
Definition is_xml (f : pystr) : bool := streq (map low (skipn (length f - 4) f)) dotxml.
(** cldrimport:57, 67: l[:-4] *)
Definition stem (f : pystr) : pystr := firstn (length f - 4) f.
Definition stems (fs : list pystr) : list pystr := map stem (filter is_xml fs).
(** a set made of a list *)
Definition to_set (l : list pystr) : list pystr :=
  fold_right (fun x acc => if existsb (streq x) acc then acc else x :: acc) [] l.

(** path in the output: directory, file *)
Notation path := (pystr * pystr)%type.
Definition patheq (p q : path) : bool := (streq (fst p) (fst q) && streq (snd p) (snd q))%bool.
Notation outdir := (list (path * pystr)).

Section Import.
  (** content of a source file, what an element is besides its attributes *)
  Context {D R : Type}.
  (** an element of the merged document: which of the files read it comes from, its attributes *)
  Record elem := El { el_from : nat; el_attrs : list (pystr * pystr); el_rest : R }.
  Notation doc := (list elem).
  Notation indir := (list (pystr * list (pystr * D))).
  (** reading and overlaying the files, in this order, normalise, lookup, add_silidentity (79-98) *)
  Variable build : pystr -> list (pystr * D) -> res doc.
  (** serialize_xml: what is written, and the exception if there is one *)
  Variable ser : doc -> pystr * option exn.

  (** cldrimport:50-57 *)
  Definition found (ins : indir) : list pystr :=
    flat_map (fun s => match dget streq ins s with Some l => stems (map fst l) | None => [] end) subdirs.
  (** cldrimport:59-67 *)
  Definition existing (out : outdir) : list pystr := stems (map (fun p => snd (fst p)) out).
  (** cldrimport:75-78 *)
  Definition sources (ins : indir) (a : pystr) : list (pystr * D) :=
    flat_map (fun s => match dget streq ins s with
                       | Some l => match dget streq l (a ++ dotxml) with Some d => [(s, d)] | None => [] end
                       | None => []
                       end) subdirs.
  (** cldrimport:99-100: [l] is the last of the files that were read, not the merged document *)
  Definition strip (last : nat) (d : doc) : doc :=
    map (fun e => if Nat.eqb (el_from e) last then El (el_from e) (ddel streq (el_attrs e) (lit "references")) (el_rest e) else e) d.
  (** cldrimport:71-108 [doit]. With --hg, dohg (110-114) splits bytes by a string, which raises. *)
  Definition doit (hg : bool) (ins : indir) (a : pystr) (out : outdir) : outdir * option exn :=
    match sources ins a with
    | [] => (out, None)
    | srcs =>
        match build a srcs with
        | Raise e => (out, Some e)
        | Ok d =>
            let d := strip (length srcs - 1) d in
            if hg then (out, Some TypeError)
            else match a with
                 | [] => (out, Some IndexError)
                 | c :: _ => let r := ser d in (dset patheq out ([c], a ++ dotxml) (fst r), snd r)
                 end
        end
    end.
  (** cldrimport:131-132 *)
  Fixpoint run_single (hg : bool) (ins : indir) (order : list pystr) (out : outdir) : outdir * option exn :=
    match order with
    | [] => (out, None)
    | a :: order' => match doit hg ins a out with (out, None) => run_single hg ins order' out | r => r end
    end.
  (** multiprocessing.pool.Pool._map_async: the size of a chunk, for [procs] processes *)
  Definition chunk_size (procs len : nat) : nat := len / (procs * 4) + (if Nat.eqb (len mod (procs * 4)) 0 then 0 else 1).
  Fixpoint chunks (fuel n : nat) (l : list pystr) : list (list pystr) :=
    match fuel, l with
    | S f, _ :: _ => firstn n l :: chunks f n (skipn n l)
    | _, _ => []
    end.
  (** a process goes through its chunk until something raises; that does not depend on what is in the output *)
  Definition fails (hg : bool) (ins : indir) (a : pystr) : bool := match snd (doit hg ins a []) with Some _ => true | None => false end.
  Fixpoint tried (hg : bool) (ins : indir) (l : list pystr) : list pystr :=
    match l with
    | [] => []
    | a :: l' => a :: (if fails hg ins a then [] else tried hg ins l')
    end.
  (** cldrimport:126-129 a pool of processes; nobody asks for the results, so that exceptions are lost. [sched] is the
      order in which the locales happen to be written. *)
  Definition run_pool (procs : nat) (sched : list pystr -> list pystr) (hg : bool) (ins : indir) (order : list pystr) (out : outdir) : outdir * option exn :=
    (fold_left (fun out a => fst (doit hg ins a out))
       (sched (flat_map (tried hg ins) (chunks (length order) (chunk_size procs (length order)) order))) out, None).
  (** cldrimport:135-138 *)
  Fixpoint unlink_all (order : list pystr) (out : outdir) : outdir * option exn :=
    match order with
    | [] => (out, None)
    | [] :: _ => (out, Some IndexError)
    | (c :: l) :: order' => unlink_all order' (ddel patheq out ([c], (c :: l) ++ dotxml))
    end.
  (** the whole; [enum] is the order in which a set is enumerated; [procs] is 0 for --single *)
  Definition import (enum sched : list pystr -> list pystr) (procs : nat) (hg remove : bool) (ins : indir) (out : outdir) : outdir * option exn :=
    let all := to_set (found ins) in
    let old := to_set (existing out) in
    let r := match procs with O => run_single hg ins (enum all) out | S _ => run_pool procs sched hg ins (enum all) out end in
    match snd r with
    | Some _ => r
    | None => if remove then unlink_all (enum (filter (fun l => negb (existsb (streq l) all)) old)) (fst r) else r
    end.
End Import.
