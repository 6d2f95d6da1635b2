(** Model of alias resolution: /repo/lib/sldr/ldml.py 904-934 (Ldml.resolve_aliases), 481-488
    (_copynode) and 962-968 (the step ".." of paths). Elements are mutable and shared, so they
    are numbers into a heap. Element.copy() of the standard library's python Element copies tag,
    attributes, text and the list of children, but not the children themselves.
    Simplified: the path of an alias is given as steps (ElementPath's tokenizer is not modelled;
    the steps are ".." and a child with a tag and attribute tests), hashes and comments are left
    out, the alias loop message is not printed, and the recursion has fuel: [None] means that the
    fuel did not suffice. *)
From Coq Require Import String.
From Verif Require Import Py.
Local Open Scope list_scope.
Local Open Scope nat_scope.

Definition id := nat.
Record elem := { e_tag : pystr; e_attrs : list (pystr * pystr); e_text : option pystr;
                 e_kids : list id; e_parent : option id }.
Definition heap := list elem.

Definition set_kids (e : elem) (l : list id) : elem :=
  {| e_tag := e_tag e; e_attrs := e_attrs e; e_text := e_text e; e_kids := l; e_parent := e_parent e |}.
Definition kids (h : heap) (n : id) : list id :=
  match nth_error h n with Some e => e_kids e | None => [] end.
Fixpoint put (h : heap) (n : id) (e : elem) : heap :=
  match h, n with
  | [], _ => []
  | _ :: h', 0 => e :: h'
  | e0 :: h', S n' => e0 :: put h' n' e
  end.
Definition put_kids (h : heap) (n : id) (l : list id) : heap :=
  match nth_error h n with Some e => put h n (set_kids e l) | None => h end.

(** list.remove of an element, which is compared by identity *)
Fixpoint remove_first (n : id) (l : list id) : option (list id) :=
  match l with
  | [] => None
  | m :: l' => if Nat.eqb m n then Some l'
               else match remove_first n l' with Some r => Some (m :: r) | None => None end
  end.
(** list.insert *)
Definition insert_at (i : nat) (x : id) (l : list id) : list id := firstn i l ++ x :: skipn i l.

(** The steps of a path: "..", and "tag[@a='v']..." *)
Inductive step := Up | Child (tag : pystr) (tests : list (pystr * pystr)).
Definition matches (tag : pystr) (tests : list (pystr * pystr)) (e : elem) : bool :=
  (streq (e_tag e) tag &&
   forallb (fun t => match dget streq (e_attrs e) (fst t) with Some v => streq v (snd t) | None => false end) tests)%bool.
(** one step from one element; 962-968 for ".." *)
Definition walk1 (h : heap) (s : step) (n : id) : list id :=
  match s with
  | Up => match nth_error h n with Some e => match e_parent e with Some p => [p] | None => [] end | None => [] end
  | Child tag tests =>
      filter (fun c => match nth_error h c with Some e => matches tag tests e | None => false end) (kids h n)
  end.
(** Element.findall *)
Fixpoint findall (h : heap) (steps : list step) (ctx : list id) : list id :=
  match steps with
  | [] => ctx
  | s :: steps' => findall h steps' (flat_map (walk1 h s) ctx)
  end.

(** lines 481-488: the copy of an element, with a new parent *)
Definition copy_elem (e : elem) (parent : id) : elem :=
  {| e_tag := e_tag e; e_attrs := e_attrs e; e_text := e_text e; e_kids := e_kids e; e_parent := Some parent |}.

Section Resolve.
  Variable steps : pystr -> list step.    (* the steps of a path *)
  Variable useDrafts : bool.

  Definition is_alias (h : heap) (n : id) : bool :=
    match nth_error h n with Some e => streq (e_tag e) (lit "alias") | None => false end.
  Definition path_of (h : heap) (n : id) : option pystr :=
    match nth_error h n with Some e => dget streq (e_attrs e) (lit "path") | None => None end.

  (** lines 924-927: the loop goes over the children of [t] by index while it inserts into
      [this]; [pos] is i + count. *)
  Fixpoint copy_in (fuel : nat) (h : heap) (this t : id) (j pos : nat) : option (heap * nat) :=
    match fuel with
    | 0 => None
    | S fuel' =>
        match nth_error (kids h t) j with
        | None => Some (h, pos)
        | Some c =>
            match nth_error h c with
            | None => None
            | Some e =>
                let new := length h in
                let h := h ++ [copy_elem e this] in
                copy_in fuel' (put_kids h this (insert_at pos new (kids h this))) this t (S j) (S pos)
            end
        end
    end.

  (** lines 913-934: the loop over list(this), [l]; [i] is the index, [count] and [has] the
      variables of the function; [rec] is the recursive call. The set _cache is a list; it is
      unchanged on return. *)
  Fixpoint resolve_loop (rec : heap -> id -> list id -> option (res (heap * bool))) (fuel : nat) (this : id)
    (cache : list id) (l : list id) (h : heap) (i count : nat) (has : bool) : option (res (heap * bool)) :=
    match l with
    | [] => Some (Ok (h, (has && useDrafts)%bool))
    | c :: l' =>
        if is_alias h c then
          match path_of h c with
          | None => resolve_loop rec fuel this cache l' h (S i) count has
          | Some v =>
              match remove_first c (kids h this) with
              | None => Some (Raise ValueError)
              | Some r =>
                  let h := put_kids h this r in
                  match findall h (steps v) [this] with
                  | [] => resolve_loop rec fuel this cache l' h (S i) count has
                  | t :: _ =>
                      if existsb (Nat.eqb t) cache then Some (Ok (h, true))
                      else
                        match rec h t (t :: cache) with
                        | None => None
                        | Some (Raise e) => Some (Raise e)
                        | Some (Ok (h, _)) =>
                            match copy_in fuel h this t 0 (i + count) with
                            | None => None
                            | Some (h, pos) => resolve_loop rec fuel this cache l' h (S i) (pos - i) true
                            end
                        end
                  end
              end
          end
        else
          match rec h c [] with
          | None => None
          | Some (Raise e) => Some (Raise e)
          | Some (Ok (h, b)) => resolve_loop rec fuel this cache l' h (S i) count (has || b)%bool
          end
    end.

  (** lines 904-934 *)
  Fixpoint resolve (fuel : nat) (h : heap) (this : id) (cache : list id) : option (res (heap * bool)) :=
    match fuel with
    | 0 => None
    | S fuel' => resolve_loop (resolve fuel') fuel' this cache (kids h this) h 0 1 false
    end.
End Resolve.
