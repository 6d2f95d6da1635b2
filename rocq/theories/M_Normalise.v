(** Model of Ldml.normalise without draft packing (/repo/lib/sldr/ldml.py 753-781). *)
From Coq Require Import String.
From Verif Require Import Py M_LdmlBase M_Collation M_Serialize.
Local Open Scope list_scope.
Local Open Scope nat_scope.

Definition is_blank (c : N) : bool := (N.eqb c 32 || N.eqb c 9)%bool.

(** ldml.py 778: re.sub(r'[ \t]*\n[ \t]*', '\n', s). [pend]: blanks seen that are dropped if a
    newline follows; [skip]: blanks are dropped because a newline came before. *)
Fixpoint tidy_from (pend : pystr) (skip : bool) (s : pystr) : pystr :=
  match s with
  | [] => pend
  | c :: s' =>
      if N.eqb c 10 then 10%N :: tidy_from [] true s'
      else if is_blank c then
        if skip then tidy_from [] true s' else tidy_from (pend ++ [c]) false s'
      else pend ++ c :: tidy_from [] false s'
  end.
Definition tidy (s : pystr) : pystr := tidy_from [] false s.

Section Normalise.
  Variable ws : N -> bool.              (* str.strip's white space *)
  Variable lower : pystr -> pystr.      (* str.lower *)
  Variable m : meta.

  (** lines 776-778 *)
  Definition clean (s : pystr) : pystr := tidy (strip ws s).
  Definition clean_text (t : option pystr) : option pystr :=
    match t with Some (c :: s) => Some (clean (c :: s)) | _ => t end.

  (** the tables of the writer, for _sortedattrs (lines 129-133) *)
  Definition meta_writer : writer :=
    {| w_ns := []; w_attord := m_attord m; w_maxats := m_maxats m; w_cdata := [] |}.

  (** lines 765-773: keyel. The key is a list that starts with an int and goes on with
      strings: kept as a pair. *)
  Definition el_order (parent tag : pystr) : nat :=
    match dget streq (m_elord m) parent with
    | Some d => match dget streq d tag with Some n => n | None => m_maxels m end
    | None => m_maxels m
    end.
  Definition attr_value_key (tag k a : pystr) : pystr :=
    match dget streq (m_attvals m) tag with
    | Some ks => match dget streq ks k with
                 | Some vals => match dget streq vals a with
                                | Some v => v
                                | None => decstr (List.length vals) ++ a
                                end
                 | None => lower a
                 end
    | None => lower a
    end.
  Definition keyel (parent : pystr) (x : node) : nat * list pystr :=
    (el_order parent (ntag x),
     ntag x :: flat_map (fun k => [k; attr_value_key (ntag x) k
                                       (match dget streq (nattrs x) k with Some a => a | None => [] end)])
                 (sortedattrs meta_writer (ntag x) (dkeys (nattrs x)))).
  Definition key_leb (a b : nat * list pystr) : bool :=
    match Nat.compare (fst a) (fst b) with
    | Lt => true | Gt => false
    | Eq => match lcmp strcmp (snd a) (snd b) with Gt => false | _ => true end
    end.
  Definition el_leb (parent : pystr) (x y : node) : bool := key_leb (keyel parent x) (keyel parent y).

  (** lines 753-779 *)
  Fixpoint normalise (n : node) : node :=
    match n with
    | Node tag attrs text kids =>
        Node tag attrs (clean_text text) (isort (el_leb tag) (map normalise kids))
    end.
End Normalise.
