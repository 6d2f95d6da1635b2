(** Model of Ldml.serialize_xml (/repo/lib/sldr/ldml.py 867-893): writing a document whose
    elements carry alternates. Every element is first prepared: some draft attributes are
    deleted, and the alternates of its children are put among its children for the time of
    writing. Left out: the uid of the document (lines 869-873, off by default). *)
From Coq Require Import String.
From Verif Require Import Py M_LdmlBase M_Serialize M_Normalise M_Drafts.
Local Open Scope list_scope.
Local Open Scope nat_scope.

(** An element in memory: tag, attributes, text, the attribute tempnode (line 887; false:
    no such attribute), the dictionary of alternates (None: no such attribute) and the children.
    As in M_Drafts an element that is both a child and an alternate (a serial tag) is one
    object in Python and two values here; None on an alternate also stands for a dictionary
    shared with its primary element. *)
Inductive wnode : Type :=
| WNode (tag : pystr) (attrs : list (pystr * pystr)) (text : option pystr) (temp : bool)
        (alts : option (list (pystr * wnode))) (kids : list wnode).
Definition wtag n := let '(WNode t _ _ _ _ _) := n in t.
Definition wattrs n := let '(WNode _ a _ _ _ _) := n in a.
Definition wtext n := let '(WNode _ _ x _ _ _) := n in x.
Definition wtemp n := let '(WNode _ _ _ b _ _) := n in b.
Definition walts n := let '(WNode _ _ _ _ l _) := n in l.
Definition wkids n := let '(WNode _ _ _ _ _ k) := n in k.
Definition wset_alts n l := let '(WNode t a x b _ k) := n in WNode t a x b l k.
Definition wset_attrs n a := let '(WNode t _ x b l k) := n in WNode t a x b l k.
Definition wset_kids n k := let '(WNode t a x b l _) := n in WNode t a x b l k.
(** line 887 *)
Definition mark n := let '(WNode t a x _ l k) := n in WNode t a x true l k.

(** A document as it comes from loading or from addnode (M_Drafts): nothing is marked. *)
Fixpoint fresh (n : lnode) : wnode :=
  match n with
  | LNode t a x _ _ l k =>
      WNode t a x false
        (match l with
         | None => None
         | Some l => Some (map (fun kv => let '(key, v) := kv in (key, fresh v)) l)
         end)
        (map fresh k)
  end.

(** list.insert (line 886), for a position that is not negative *)
Definition insert_at {A} (i : nat) (x : A) (l : list A) : list A := firstn i l ++ x :: skipn i l.

Section Write.
  Variable dd : pystr.          (* self.default_draft *)
  Variable silid : pystr.       (* "{" + self.silns + "}identity" *)

  (** lines 876-878 *)
  Definition drop_draft (tag : pystr) (attrs : list (pystr * pystr)) (haskids : bool)
    : list (pystr * pystr) :=
    match dget streq attrs (lit "draft") with
    | Some (c :: d) =>
        if (haskids || streq (c :: d) dd) && negb (streq tag silid)
        then ddel streq attrs (lit "draft") else attrs
    | _ => attrs
    end.

  (** line 884: the attribute alt written on the alternate [a] of a child of an element
      with the attribute [alt] *)
  Definition alt_text (alt a : pystr) : pystr :=
    match alt with [] => a | _ => alt ++ lit "-" ++ a end.

  (** lines 879-887: [cs] are the children with their alternates in the order of their keys,
      [acc] is the list of children of the element *)
  Fixpoint put_alts {A} (i offset : nat) (cs : list (A * list A)) (acc : list A) : list A :=
    match cs with
    | [] => acc
    | (_, als) :: cs' =>
        let '(offset, acc) :=
          fold_left (fun st a => let '(offset, acc) := st in
                                 (S offset, insert_at (i + S offset) a acc))
                    als (offset, acc) in
        put_alts (S i) offset cs' acc
    end.

  Definition key_leb {A} (x y : pystr * A) : bool := strleb (fst x) (fst y).

  (** serialize_xml(base=n), after n.set('alt', ...) for an alternate (line 884): the element
      that the inherited function writes, and the element left in memory. *)
  Fixpoint wr (seta : option pystr) (n : wnode) : node * wnode :=
    match n with
    | WNode tag attrs text temp alts kids =>
        let attrs := match seta with
                     | Some a => dset streq attrs (lit "alt") a
                     | None => attrs
                     end in
        let attrs := drop_draft tag attrs (match kids with [] => false | _ => true end) in
        let alt := match dget streq attrs (lit "alt") with Some a => a | None => [] end in
        let cs :=
          map (fun c =>
                 let '(o, c') := wr None c in
                 match c with
                 | WNode _ _ _ _ None _ => ((o, c'), [])
                 | WNode _ _ _ _ (Some al) _ =>
                     let al' := map (fun kv =>
                                       let '(k, v) := kv in
                                       let '(o, v') := wr (Some (alt_text alt k)) v in
                                       (k, (o, mark v'))) al in
                     ((o, wset_alts c' (Some (map (fun kv => let '(k, (_, v)) := kv in (k, v)) al'))),
                      map snd (isort key_leb al'))
                 end) kids in
        let all := put_alts 0 0 cs (map fst cs) in
        (Node tag attrs text (map fst all),
         WNode tag attrs text temp alts
               (filter (fun c => negb (wtemp c)) (map snd all)))     (* lines 889-893 *)
    end.

  (** with useDrafts off: the alternates are not looked at *)
  Fixpoint plain (n : wnode) : node :=
    match n with WNode tag attrs text _ _ kids => Node tag attrs text (map plain kids) end.

  (** serialize_xml(write) of a document: the text, and the document afterwards *)
  Definition save (w : writer) (topns useDrafts : bool) (root : wnode) (cnt : nat) (nss : nsdict)
    : res (nat * nsdict * pystr * wnode) :=
    let '(out, root') := if useDrafts then wr None root else (plain root, root) in
    do r <- serialize w topns out cnt nss;
    Ok (r, root').
End Write.

(** lines 568-588 (_promote) with alt given, as in M_Drafts: the mark stays on the element *)
Definition wpromote (old new : wnode) (alt : pystr) : wnode :=
  let oalt := match walts old with Some a => a | None => [] end in
  let oalt := match dget streq (wattrs new) (lit "alt") with
              | Some a => if dmem streq oalt a then ddel streq oalt a else oalt
              | None => oalt
              end in
  let old := wset_alts old (walts new) in
  let '(new, old) :=
    match dget streq (wattrs new) (lit "alt") with
    | Some _ => (wset_attrs new (ddel streq (wattrs new) (lit "alt")),
                 wset_attrs old (dset streq (wattrs old) (lit "alt") alt))
    | None => (new, old)
    end in
  wset_alts new (Some (dset streq oalt alt old)).
