(** Model of draft alternates: elements of a loaded document, the packing of alternates by
    Ldml.normalise (/repo/lib/sldr/ldml.py 753-805), _find_best, _promote, change_draft
    (543-600), _add_alt_leaf and addnode (490-541). *)
From Coq Require Import String.
From Verif Require Import Py M_LdmlBase M_Serialize M_Normalise.
Local Open Scope list_scope.
Local Open Scope nat_scope.

(** An element of a loaded document: tag, attributes, text, the stored key hash and content
    hash (ldml.py 828-852; they are not recomputed when the element changes), the dictionary
    of alternates (None: no such attribute) and the children. Two simplifications: an element
    added while drafts are not in use has no hash attributes in Python and zero hashes here; an
    element of a serial tag that is both a child and an alternate is one object in Python and
    two equal values here. *)
Inductive lnode : Type :=
| LNode (tag : pystr) (attrs : list (pystr * pystr)) (text : option pystr) (ah ch : Z)
        (alts : option (list (pystr * lnode))) (kids : list lnode).
Definition ltag n := let '(LNode t _ _ _ _ _ _) := n in t.
Definition lattrs n := let '(LNode _ a _ _ _ _ _) := n in a.
Definition ltext n := let '(LNode _ _ x _ _ _ _) := n in x.
Definition lah n := let '(LNode _ _ _ h _ _ _) := n in h.
Definition lch n := let '(LNode _ _ _ _ h _ _) := n in h.
Definition lalts n := let '(LNode _ _ _ _ _ a _) := n in a.
Definition lkids n := let '(LNode _ _ _ _ _ _ k) := n in k.
Definition lget (n : lnode) (k : pystr) : option pystr := dget streq (lattrs n) k.
Definition set_alts (n : lnode) (a : option (list (pystr * lnode))) : lnode :=
  let '(LNode t at_ x h c _ k) := n in LNode t at_ x h c a k.
Definition set_kids (n : lnode) (k : list lnode) : lnode :=
  let '(LNode t at_ x h c a _) := n in LNode t at_ x h c a k.
Definition set_attrs (n : lnode) (at_ : list (pystr * pystr)) : lnode :=
  let '(LNode t _ x h c a k) := n in LNode t at_ x h c a k.
Definition set_text (n : lnode) (x : option pystr) : lnode :=
  let '(LNode t at_ _ h c a k) := n in LNode t at_ x h c a k.

(** equality of keys that may be None *)
Definition opteq (a b : option pystr) : bool :=
  match a, b with
  | Some a, Some b => streq a b
  | None, None => true
  | _, _ => false
  end.

(** * Packing: lines 782-805 *)
Section Pack.
  Variable m : meta.
  Variable dd : pystr.                  (* self.default_draft *)

  (** get_draft(c, default=self.default_draft) (lines 895-899). The KeyError for an unknown
      default draft is the subject of C24 and is left out here: the level is then 0. *)
  Definition level (c : lnode) : nat :=
    match get_draft dd (lget c (lit "draft")) (Some dd) with Ok n => n | Raise _ => 0 end.
  Definition lalt (c : lnode) : option pystr := lget c (lit "alt").

  (** an entry of the inner dictionary of [temp]: position of the child (its identity) and
      the child *)
  Notation item := (nat * lnode)%type.

  (** lines 784-788, the inner dictionary: keep the first, replace by a strictly better draft *)
  Definition put (v : list (option pystr * item)) (x : item) : list (option pystr * item) :=
    match dget opteq v (lalt (snd x)) with
    | None => dset opteq v (lalt (snd x)) x
    | Some y => if level (snd x) <? level (snd y) then dset opteq v (lalt (snd x)) x else v
    end.
  (** lines 783-788: the outer dictionary, by key hash *)
  Definition put_all (temp : list (Z * list (option pystr * item))) (x : item)
    : list (Z * list (option pystr * item)) :=
    dset Z.eqb temp (lah (snd x))
      (put (match dget Z.eqb temp (lah (snd x)) with Some v => v | None => [] end) x).

  (** min(keys, key=...): the first entry with the least level (line 793) *)
  Fixpoint best_entry (v : list (option pystr * item)) : option (option pystr * item) :=
    match v with
    | [] => None
    | e :: v' =>
        match best_entry v' with
        | None => Some e
        | Some e' => if level (snd (snd e')) <? level (snd (snd e)) then Some e' else Some e
        end
    end.
  (** lines 790-793 *)
  Definition main_entry (v : list (option pystr * item)) : option (option pystr * item) :=
    match dget opteq v None with
    | Some x => Some (None, x)
    | None => best_entry v
    end.
  (** line 794. The key None is never left over: it would be [resk]. *)
  Definition other_alts (resk : option pystr) (v : list (option pystr * item))
    : list (pystr * lnode) :=
    flat_map (fun e => match fst e with
                       | Some k => if opteq (Some k) resk then [] else [(k, snd (snd e))]
                       | None => []
                       end) v.

  (** lines 796-805: what becomes of the child at position [i] *)
  Definition place (temp : list (Z * list (option pystr * item))) (x : item) : list lnode :=
    let '(i, c) := x in
    match dget Z.eqb temp (lah c) with
    | None => [c]                                    (* not reached *)
    | Some v =>
        match main_entry v with
        | None => [c]                                (* not reached *)
        | Some (resk, (j, _)) =>
            if Nat.eqb i j then [set_alts c (Some (other_alts resk v))]
            else if memstr (ltag c) (m_serial m) then [c]
            else []
        end
    end.

  Definition pack_kids (cs : list lnode) : list lnode :=
    let items := combine (seq 0 (List.length cs)) cs in
    let temp := fold_left put_all items [] in
    flat_map (place temp) items.
End Pack.

(** * Loading: normalise with hashes and, with [usedrafts], packing (lines 753-805) *)
Section Load.
  Variable ws : N -> bool.
  Variable lower : pystr -> pystr.
  Variable hasher : pystr -> Z.
  Variable m : meta.
  Variable dd : pystr.
  Variable usedrafts : bool.

  (** the sort key looks at the tag and the attributes only (lines 765-773) *)
  Definition shell (n : lnode) : node := Node (ltag n) (lattrs n) None [].
  Fixpoint load (n : node) : lnode :=
    match n with
    | Node tag attrs text kids =>
        let ks := isort (fun x y => el_leb lower m tag (shell x) (shell y)) (map load kids) in
        let text' := clean_text ws text in
        let '(ah, ch) := calc_hashes hasher m usedrafts tag attrs text' (map lch ks) in
        LNode tag attrs text' ah ch None (if usedrafts then pack_kids m dd ks else ks)
    end.
End Load.

(** * Changing the draft of an element *)

(** the rating of an alternate in _find_best (line 560): use_draft for a missing attribute *)
Definition alt_rating (use_draft : option pystr) (v : lnode) : nat :=
  rating (match lget v (lit "draft") with Some d => Some d | None => use_draft end) maxrating.

(** lines 559-563: the loop *)
Fixpoint find_loop (ud : option pystr) (alts : list (pystr * lnode)) (res : option pystr) (th : nat)
  : option pystr * nat :=
  match alts with
  | [] => (res, th)
  | (k, v) :: alts' =>
      if alt_rating ud v <? th then find_loop ud alts' (Some k) (alt_rating ud v)
      else find_loop ud alts' res th
  end.

(** lines 543-566 (_find_best), for a given alt (its caller never passes None) *)
Definition find_best (ud : option pystr) (n : lnode) (threshold : nat) (alt : pystr) : option pystr :=
  match lalts n with
  | None => None
  | Some alts =>
      let '(res, th) := find_loop ud alts None threshold in
      match dget streq alts alt with
      | Some b => if Nat.eqb th (rating (lget b (lit "draft")) maxrating) then Some alt else res
      | None => res
      end
  end.

(** lines 568-584 (_promote) with alt given: the new primary element, holding the old one.
    In Python, when the new element has no alternates of its own, both elements end up with
    the same dictionary object, so the old one is (also) an alternate of itself. In the model
    the old one then has no alternates: "None" on an alternate means no attribute or the
    dictionary shared with the primary. The code never sees the difference: _promote would
    hand the same dictionary over again and the loop at 532-536 finds every entry there. *)
Definition promote (old new : lnode) (alt : pystr) : lnode :=
  let oalt := match lalts old with Some a => a | None => [] end in
  let oalt := match lget new (lit "alt") with
              | Some a => if dmem streq oalt a then ddel streq oalt a else oalt
              | None => oalt
              end in
  let old := set_alts old (lalts new) in
  let '(new, old) :=
    match lget new (lit "alt") with
    | Some _ => (set_attrs new (ddel streq (lattrs new) (lit "alt")),
                 set_attrs old (dset streq (lattrs old) (lit "alt") alt))
    | None => (new, old)
    end in
  set_alts new (Some (dset streq oalt alt old)).

(** lines 585-588: the new element takes the place of the old one among its siblings;
    lines 591-600 (change_draft). The element is given by value and the caller replaces it:
    the result is the element that now stands in its place. The KeyError cannot happen:
    [find_best] answers a key of the alternates. *)
Definition change_draft (ud uid : option pystr) (n : lnode) (draft : pystr) (alt : option pystr) : lnode :=
  let alt := alt_name uid alt in
  let best := find_best ud n (rating (Some draft) maxrating) alt in
  let n := set_attrs n (dset streq (lattrs n) (lit "draft") draft) in
  match best with
  | None => n
  | Some b =>
      match lalts n with
      | None => n
      | Some alts => match dget streq alts b with
                     | None => n
                     | Some new => promote n new alt
                     end
      end
  end.

(** * Adding an element *)

(** the first position whose element satisfies a test *)
Fixpoint index_where {A} (p : A -> bool) (l : list A) : option nat :=
  match l with
  | [] => None
  | x :: l' => if p x then Some 0
               else match index_where p l' with Some i => Some (S i) | None => None end
  end.
Fixpoint replace_nth {A} (i : nat) (x : A) (l : list A) : list A :=
  match l, i with
  | [], _ => []
  | _ :: l', O => x :: l'
  | y :: l', S i' => y :: replace_nth i' x l'
  end.

Section AddNode.
  Variable hasher : pystr -> Z.
  Variable m : meta.
  Variable dd : pystr.                  (* self.default_draft *)
  Variable useDrafts : bool.
  Variable ud uid : option pystr.       (* self.use_draft, self.uid *)
  Variable ns : list (pystr * pystr).   (* self.namespaces *)

  Definition draft_of (c : lnode) (default : option pystr) : res nat :=
    get_draft dd (lget c (lit "draft")) default.

  (** where the element returned by addnode is *)
  Inductive where_to := Primary | Alternate (k : pystr).

  (** lines 515-537 (_add_alt_leaf, leaf=True): the element now standing at the place of
      [target], and where the returned element is. [origin] is new and has no alternates, so
      after a promotion lines 526-537 change nothing: the entry [alt] is the old primary
      already, and the dictionary of the old primary is the one of the new. *)
  Definition add_alt_leaf (target origin : lnode) (default : option pystr) (alt : pystr)
    : res (lnode * where_to) :=
    do od <- draft_of origin default;
    do td <- draft_of target default;
    if od <? td then Ok (promote target origin alt, Primary)
    else
      match lalts target with
      | None => Ok (set_alts target (Some [(alt, origin)]), Alternate alt)
      | Some alts =>
          match dget streq alts alt with
          | Some v =>
              do vd <- draft_of v default;
              if vd <? od then Ok (target, Alternate alt)
              else Ok (set_alts target (Some (dset streq alts alt origin)), Alternate alt)
          | None => Ok (set_alts target (Some (dset streq alts alt origin)), Alternate alt)
          end
      end.

  (** lines 490-513 (addnode): [attribs] are the keyword arguments. The result is the parent
      with the new element, and where the element returned is. *)
  Definition addnode (parent : lnode) (tag : pystr) (attrib attribs : list (pystr * pystr))
      (alt : option pystr) : res (lnode * (nat * where_to)) :=
    let attrib := filter (fun kv : pystr * pystr => match snd kv with [] => false | _ => true end) attrib in
    let attrs := fold_left (fun d (kv : pystr * pystr) => dset streq d (fst kv) (snd kv)) attribs attrib in
    let tag := reverse_localns ns tag in
    let append e := (set_kids parent (lkids parent ++ [e]), (List.length (lkids parent), Primary)) in
    if useDrafts then
      let alt := alt_name uid alt in
      let attrs := if dmem streq attrs (lit "draft") then attrs
                   else match ud with Some d => dset streq attrs (lit "draft") d | None => attrs end in
      let '(ah, ch) := calc_hashes hasher m true tag attrs None [] in
      match index_where (fun x => Z.eqb (lah x) ah) (lkids parent) with
      | Some i =>
          match nth_error (lkids parent) i with
          | Some target =>
              let attrs := if dmem streq attrs (lit "alt") then attrs
                           else dset streq attrs (lit "alt") alt in
              let e := LNode tag attrs None ah ch None [] in
              do tw <- add_alt_leaf target e (dget streq attrs (lit "draft")) alt;
              Ok (set_kids parent (replace_nth i (fst tw) (lkids parent)), (i, snd tw))
          | None => Ok (append (LNode tag attrs None ah ch None []))     (* not reached *)
          end
      | None => Ok (append (LNode tag attrs None ah ch None []))
      end
    else Ok (append (LNode tag attrs None 0%Z 0%Z None [])).
End AddNode.
