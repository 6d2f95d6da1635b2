(** Model of the script that turns the annotations of a schema, which are comments, into
    attributes (/repo/scripts/proccldrcomments), from the parsed document to the tree that is
    written.
    Simplifications: a tag and an attribute name are strings; character data is only kept where
    the script can read it again, in [rtext]; attributes are changed through the number of the
    element instead of the object. *)
From Coq Require Import String.
From Verif Require Import Py.
Local Open Scope list_scope.
Local Open Scope nat_scope.

(** the document given: elements, comments, character data *)
Inductive item : Type :=
| E (tag : pystr) (attrs : list (pystr * pystr)) (kids : list item)
| C (text : pystr)
| T (chars : pystr).
(** the tree held after parsing *)
Inductive rnode : Type := R (tag : pystr) (attrs : list (pystr * pystr)) (rtext : pystr) (kids : list rnode).

(** * Annotations: lines 78-83, re.match(r"^\s*@([A-Z]+)\s*(?::(.*?))?\s*$", text) *)
(** \s *)
Definition is_ws (c : N) : bool :=
  (N.leb 9 c && N.leb c 13 || N.leb 28 c && N.leb c 32 || N.eqb c 133 || N.eqb c 160 || N.eqb c 5760
   || N.leb 8192 c && N.leb c 8202 || N.eqb c 8232 || N.eqb c 8233 || N.eqb c 8239 || N.eqb c 8287 || N.eqb c 12288)%bool.
Definition is_up (c : N) : bool := (N.leb 65 c && N.leb c 90)%bool.
Fixpoint skip_ws (s : pystr) : pystr :=
  match s with c :: s' => if is_ws c then skip_ws s' else s | [] => [] end.
Definition rskip_ws (s : pystr) : pystr := rev (skip_ws (rev s)).
Fixpoint ups (s : pystr) : pystr * pystr :=
  match s with
  | c :: s' => if is_up c then let (a, b) := ups s' in (c :: a, b) else ([], s)
  | [] => ([], [])
  end.
(** name.lower() of letters A-Z *)
Definition lower (s : pystr) : pystr := map (fun c => (c + 32)%N) s.
(** The name must be all the letters, as what follows is white space, a colon or the end; .*? takes
    what is left without the white space at its end, and no newline. *)
Definition annotation (text : pystr) : option (pystr * pystr) :=
  match skip_ws text with
  | 64%N :: s =>
      match ups s with
      | ([], _) => None
      | (name, s') =>
          match skip_ws s' with
          | [] => Some (name, lit "true")
          | 58%N :: v =>
              let v' := rskip_ws v in
              if inchars 10 v' then None else Some (name, match v' with [] => lit "true" | _ => v' end)
          | _ => None
          end
      end
  | _ => None
  end.
(** line 14 *)
Definition cldrtns : pystr := lit "{urn://unicode.org/cldr/types/0.1}".

(** * The events of iterparse: lines 56-74. A comment comes as the start and the end of an element
    named "!--" (lines 49-53). *)
Inductive tok : Type := TStart | TEnd | TCom (text : pystr).
Fixpoint tokens (i : item) : list tok :=
  match i with
  | E _ _ kids => TStart :: flat_map tokens kids ++ [TEnd]
  | C t => [TCom t]
  | T _ => []
  end.

(** [stack] is curr and its parents, [last] is last, [next] numbers the elements as they start and
    [log] is the calls of last.set *)
Record state : Type := St { stack : list nat; last : option nat; next : nat; log : list (nat * (pystr * pystr)) }.
(** one event. _proc_comment: lines 77-93; before the end of any element last is None. *)
Definition event (st : state) (t : tok) : res state :=
  match t with
  | TStart => Ok (St (next st :: stack st) (last st) (S (next st)) (log st))
  | TEnd =>
      match stack st with
      | [] => Raise AttributeError
      | i :: s => Ok (St s (Some i) (next st) (log st))
      end
  | TCom text =>
      match stack st with
      | [] => Ok st
      | _ :: _ =>
          match annotation text with
          | None => Ok st
          | Some (name, v) =>
              match last st with
              | None => Raise AttributeError
              | Some i => Ok (St (stack st) (last st) (next st) (log st ++ [(i, (cldrtns ++ lower name, v))]))
              end
          end
      end
  end.
Fixpoint run (ts : list tok) (st : state) : res state :=
  match ts with
  | [] => Ok st
  | t :: ts' => do st' <- event st t; run ts' st'
  end.

(** * The tree: the elements without the comments (line 71), with the attributes set *)
Definition set_attrs (l : list (nat * (pystr * pystr))) (n : nat) (a : list (pystr * pystr)) : list (pystr * pystr) :=
  fold_left (fun a (e : nat * (pystr * pystr)) => if fst e =? n then dset streq a (fst (snd e)) (snd (snd e)) else a) l a.
(** the text of an element ends at its first child, and a comment is one when it is parsed; the
    text after a comment is the tail of that child and goes when it is removed *)
Fixpoint lead (kids : list item) : pystr :=
  match kids with T s :: kids' => s ++ lead kids' | _ => [] end.
Fixpoint size (i : item) : nat :=
  match i with E _ _ kids => S (list_sum (map size kids)) | _ => 0 end.
Fixpoint build (l : list (nat * (pystr * pystr))) (n : nat) (i : item) : list rnode :=
  match i with
  | E tag attrs kids =>
      [R tag (set_attrs l n attrs) (lead kids)
         ((fix go (n : nat) (ks : list item) : list rnode :=
             match ks with [] => [] | k :: ks' => build l n k ++ go (n + size k) ks' end) (S n) kids)]
  | _ => []
  end.
Fixpoint build_all (l : list (nat * (pystr * pystr))) (n : nat) (ks : list item) : list rnode :=
  match ks with [] => [] | k :: ks' => build l n k ++ build_all l (n + size k) ks' end.

(** lines 33-75: the root, between comments before and after it *)
Definition parse (before : list pystr) (tag : pystr) (attrs : list (pystr * pystr)) (kids : list item) (after : list pystr) : res rnode :=
  do st <- run (map TCom before ++ tokens (E tag attrs kids) ++ map TCom after) (St [] None 0 []);
  match build (log st) 0 (E tag attrs kids) with
  | r :: _ => Ok r
  | [] => Raise AttributeError
  end.

(** * What is written: lines 137-186 without name spaces and indents. Text of an element that has
    elements in it is not written. *)
Inductive out : Type := OStart (tag : pystr) (attrs : list (pystr * pystr)) | OText (s : pystr) | OEnd (tag : pystr).
Fixpoint write (r : rnode) : list out :=
  match r with
  | R tag attrs text kids =>
      OStart tag attrs ::
      match kids with
      | [] => match text with [] => [] | _ => [OText text] end
      | _ => flat_map write kids
      end ++ [OEnd tag]
  end.
