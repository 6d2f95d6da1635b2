(** Model of the script that rewrites an ICU tailoring (/repo/scripts/icupretty). Parsing,
    minimising, sort keys and writing are arguments (M_Collation, M_Minimise, M_AsICU). *)
From Coq Require Import String.
From Verif Require Import Py M_Collation M_Files.
Local Open Scope list_scope.

Section Pretty.
  Variable ws : N -> bool.
  Variable E : Type.                                (* elements *)
  Notation coll := (list (pystr * E)).
  Variable parse : pystr -> res coll.
  Variable minimise : list pystr -> coll -> res coll.
  Variable setkeys : coll -> res coll.
  Variable as_icu : bool -> coll -> res pystr.      (* with the keys or not *)
  Variable split_ws : pystr -> list pystr.

  (** line 44: CollElement asks for base, level and before (collation.py:567); None is not given *)
  Variable element : pystr -> nat -> N -> E.
  Definition CollElement (base : pystr) (level : nat) (before : option N) : res E :=
    match before with Some b => Ok (element base level b) | None => Raise TypeError end.
  Definition asat : N := 0x103A%N.
  Definition dot : N := 0x1037%N.
  Definition ends_asat (k : pystr) : bool := endswith [asat] (rstrip ws k).
  (** lines 42-51; [fill] is lines 45-48 *)
  Variable fill : E -> E -> E.
  Fixpoint adddot (items : coll) (c : coll) (count : nat) : res (coll * nat) :=
    match items with
    | [] => Ok (c, count)
    | (k, v) :: items' =>
        if ends_asat k then
          do n <- CollElement k 4 None;
          adddot items' (dset streq c (removelast k ++ dot :: match k with [] => [] | x :: r => [last k x] end) (fill v n)) (S count)
        else adddot items' c count
    end.
  (** lines 14-61: the files afterwards and the exception; the output is opened last *)
  Definition icupretty (infile : pystr) (output alphabet : option pystr) (keys dots : bool) (files : list (pystr * pystr))
    : list (pystr * pystr) * res pystr :=
    match dget streq files infile with
    | None => (files, Raise ValueError)                (* FileNotFoundError *)
    | Some tailor =>
        match (do c <- parse tailor;
               do c <- match alphabet with Some (a :: al) => minimise (split_ws (a :: al) ++ map fst c) c | _ => Ok c end;
               do c <- setkeys c;
               do c <- if dots then do r <- adddot c c 0; Ok (fst r) else Ok c;
               as_icu keys c) with
        | Raise e => (files, Raise e)
        | Ok text => match output with
                     | Some (o :: out) => (dset streq files (o :: out) text, Ok [])
                     | _ => (files, Raise TypeError) (* line 59: an encoder that gives bytes to a stream of text *)
                     end
        end
    end.
End Pretty.
