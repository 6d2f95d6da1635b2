(** Model of the small methods of the writer of documents (/repo/lib/sldr/ldml.py): ETWriter.__init__ (92-99),
    add_namespace (191-195), addnode (197-201), subelement (214-218), etwrite (221-225), and of Ldml.add_silidentity
    (948-952). *)
From Coq Require Import String.
From Verif Require Import Py M_LdmlBase M_Collation M_Serialize M_Normalise M_Drafts M_Paths.
Local Open Scope list_scope.

(** lines 92-99: the table of a writer; [given] is the argument, [own] an attribute the object has already. An ETWriter
    has none, so that line 96 fails before the default of line 97. *)
Definition init_ns (own given : option nsdict) : res nsdict :=
  match given with
  | Some d => Ok d
  | None => match own with
            | None => Raise AttributeError
            | Some d => Ok d
            end
  end.

(** lines 191-195: the prefix to use, and the table afterwards *)
Definition add_namespace (ns : nsdict) (q u : pystr) : pystr * nsdict :=
  match dget streq ns u with
  | Some p => (p, ns)
  | None => (q, dset streq ns u q)
  end.

(** lines 200, 217: the comprehension over the keyword arguments, [f] is applied to the names *)
Definition given_attrs (f : pystr -> pystr) (kw : list (pystr * option pystr)) : list (pystr * pystr) :=
  fold_left (fun d (kv : pystr * option pystr) => match snd kv with Some v => dset streq d (f (fst kv)) v | None => d end) kw [].
(** lines 197-201: the parent afterwards *)
Definition addnode_ (parent : node) (tag : pystr) (kw : list (pystr * option pystr)) : node :=
  match parent with
  | Node t a x kids => Node t a x (kids ++ [Node tag (given_attrs (fun k => k) kw) None []])
  end.
(** lines 214-218: the last line uses k, which outside the comprehension has no value *)
Definition subelement (ns : nsdict) (parent : node) (tag : pystr) (kw : list (pystr * option pystr)) : res node :=
  let tag := reverse_localns ns tag in
  let kw := given_attrs (reverse_localns ns) kw in
  let k : res (list (pystr * pystr)) := Raise NameError in
  do attrs <- k;
  match parent with Node t a x kids => Ok (Node t a x (kids ++ [Node tag attrs None []])) end.

(** lines 221-225; maxAts is None, but without an order of attributes it is the same for all *)
Definition etwrite_writer (ns : nsdict) : writer := {| w_ns := ns; w_attord := []; w_maxats := 0; w_cdata := [] |}.
Definition etwrite (topns : bool) (given : option nsdict) (root : node) (cnt : nat) (nss : nsdict) : res (nat * nsdict * pystr) :=
  do ns <- init_ns None (Some (match given with Some d => d | None => [] end));
  serialize (etwrite_writer ns) topns root cnt nss.

(** lines 948-952 *)
Definition silidentity_path : pystr := lit "identity/special/sil:identity".
Section Identity.
  Variable ws : N -> bool.
  Variable hasher : pystr -> Z.
  Variable m : meta.
  Variable dd : pystr.
  Variable useDrafts : bool.
  Variable ud uid : option pystr.
  Variable ns : list (pystr * pystr).
  Definition add_silidentity (root : lnode) (kws : list (pystr * pystr)) : res lnode :=
    do r <- ensure_path ws hasher m dd useDrafts ud uid ns root [] silidentity_path None None None None false None;
    match snd r with
    | [] => Raise IndexError
    | p :: _ => match at_place (fst r) p with
                | None => Raise AttributeError          (* not reached *)
                | Some s => Ok (put_at (fst r) p (set_attrs s (fold_left (fun a kv => dset streq a (fst kv) (snd kv)) kws (lattrs s))))
                end
    end.
End Identity.
