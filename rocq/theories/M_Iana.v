(** Model of /repo/lib/sldr/iana.py: reading the IANA language subtag registry.
    [ws] is the white space of [str.strip], [lower] is [str.lower]; both are parameters. *)
From Verif Require Import Py M_Collation.
Local Open Scope nat_scope.

(** a field of a record: a string, or a list of strings once the field is repeated *)
Inductive fval := VStr (s : pystr) | VList (l : list pystr).
Notation irec := (list (pystr * fval)).

(** The state of the loop. [i_recs] are the [currtag] dictionaries made so far, the last one is
    the current [currtag] (the first is the detached dictionary of line 35); [i_types] are the
    attributes set on the object: for each type the subtags and the number of their
    dictionary; [i_type] and [i_field] are [currtype] and [currfield], unbound at first. *)
Record istate := mkI {
  i_recs : list irec;
  i_types : list (pystr * list (pystr * nat));
  i_type : option pystr;
  i_field : option pystr
}.

Definition istart : istate := mkI [[]] [] None None.   (* iana.py:35 *)

Section Iana.
Variables (ws : N -> bool) (lower : pystr -> pystr).

(** iana.py:41,44,45: [l.strip().split(":", 1)], None for the ValueError *)
Fixpoint split_colon (s : pystr) : option (pystr * pystr) :=
  match s with
  | [] => None
  | c :: r => if N.eqb c 58 then Some ([], r)
              else match split_colon r with Some (f, v) => Some (c :: f, v) | None => None end
  end.
Definition field_of (l : pystr) : option (pystr * pystr) :=
  match split_colon (strip ws l) with
  | Some (f, v) => Some (lower f, strip ws v)
  | None => None
  end.

(** the current [currtag] is the last dictionary: change it *)
Definition upd_last (f : irec -> irec) (l : list irec) : list irec :=
  removelast l ++ [f (last l [])].

(** iana.py:39: [currtag[currfield] += " " + l.strip()]; [+=] on a list appends the
    characters of the string one by one *)
Definition continue (st : istate) (l : pystr) : res istate :=
  match i_field st with
  | None => Raise NameError
  | Some f =>
      match dget streq (last (i_recs st) []) f with
      | None => Raise KeyError
      | Some (VStr s) =>
          Ok (mkI (upd_last (fun r => dset streq r f (VStr (s ++ 32%N :: strip ws l))) (i_recs st))
                  (i_types st) (i_type st) (i_field st))
      | Some (VList vs) =>
          Ok (mkI (upd_last (fun r => dset streq r f (VList (vs ++ map (fun c => [c]) (32%N :: strip ws l)))) (i_recs st))
                  (i_types st) (i_type st) (i_field st))
      end
  end.

Definition TYPE := lit "type".
Definition SUBTAG := lit "subtag".

(** iana.py:53-58 *)
Definition put (r : irec) (f v : pystr) : irec :=
  match dget streq r f with
  | Some (VStr s) => dset streq r f (VList [s; v])
  | Some (VList l) => dset streq r f (VList (l ++ [v]))
  | None => dset streq r f (VStr v)
  end.

(** iana.py:46-59, for a field line. [hasattr]/[getattr] are modelled on the attributes this
    method sets; a Type equal to the name of another attribute of the object (path, parse, a
    dunder name) is outside the model. *)
Definition field (st : istate) (f v : pystr) : res istate :=
  if streq f TYPE then Ok (mkI (i_recs st) (i_types st) (Some v) (Some f))
  else if streq f SUBTAG then
    match i_type st with
    | None => Raise NameError
    | Some ty =>
        let subs := match dget streq (i_types st) ty with Some d => d | None => [] end in
        Ok (mkI (i_recs st ++ [[]])
                (dset streq (i_types st) ty (dset streq subs v (length (i_recs st))))
                (i_type st) (Some f))
    end
  else Ok (mkI (upd_last (fun r => put r f v) (i_recs st)) (i_types st) (i_type st) (Some f)).

(** iana.py:37-59: one line *)
Definition iline (st : istate) (l : pystr) : res istate :=
  do st <- (match l with 32%N :: _ => continue st l | _ => Ok st end);
  match field_of l with
  | None => Ok st
  | Some (f, v) => field st f v
  end.

(** iana.py:34-59 *)
Fixpoint ilines (st : istate) (ls : list pystr) : res istate :=
  match ls with
  | [] => Ok st
  | l :: ls' => do st <- iline st l; ilines st ls'
  end.
Definition iana_parse (ls : list pystr) : res istate := ilines istart ls.

End Iana.

(** [getattr(iana, ty)[sub]] after parsing *)
Definition iana_get (st : istate) (ty sub : pystr) : option irec :=
  match dget streq (i_types st) ty with
  | None => None
  | Some d => match dget streq d sub with
              | None => None
              | Some n => Some (nth n (i_recs st) [])
              end
  end.
