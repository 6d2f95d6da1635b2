(** Model of the readers that complete the registry of tags: LangTags.readLikelySubtags,
    readExtras and readSupplementalData (/repo/lib/sldr/langtags_full.py 346-372, 421-463).
    Simplifications: the files are given by what the code reads from them: the (from, to) pairs
    of likelySubtags.xml, the (confirmed, langtag, likely_subtag) rows of the extras file, and for
    supplementalData.xml the (type, scripts) pairs of its language elements and the (territory,
    language) pairs of its languagePopulation elements, all in document order; the attributes
    that CLDR's DTD requires are there. The dictionary of territories and the attribute isCldr,
    which nothing reads, are left out. *)
From Coq Require Import String.
From Verif Require Import Py M_LangTags.
Local Open Scope list_scope.
Local Open Scope nat_scope.

Section Readers.
Variables lower upper title : pystr -> pystr.
Variable order : list pystr -> list pystr.     (* the iteration order of a set of strings *)

(** The registry and the number that the next new object gets *)
Definition rstate := (registry * nat)%type.

(** the registry as [analyse] reads it: its keys with the present state of the objects *)
Definition view (r : registry) : list (pystr * tag) := map (fun kv => (fst kv, r_obj r (snd kv))) (r_map r).

(** langtags_full.py:268-304 [t.analyse(self)] for a tag that is not yet registered: either the
    registered object that its short form names, or the tag itself, a new object. Also used
    for a registered object [i] (460): analyse may then change that object. *)
Definition rank_bound : nat := 5.
Definition settle_new (st : rstate) (t : tag) : rstate * nat :=
  let '(r, n) := st in
  match dget streq (r_map r) (tag_str t) with
  | Some i => ((r, n), i)
  | None =>
      match analyse rank_bound (view r) t with
      | Some t' => ((mkReg (r_map r) (upd (r_obj r) n t'), S n), n)
      | None => ((mkReg (r_map r) (upd (r_obj r) n t), S n), n)     (* not reached: C49 *)
      end
  end.
Definition settle_old (st : rstate) (i : nat) : rstate * nat :=
  let '(r, n) := st in
  match dget streq (r_map r) (tag_str (r_obj r i)) with
  | Some j => ((r, n), j)
  | None =>
      match analyse rank_bound (view r) (r_obj r i) with
      | Some t' => ((mkReg (r_map r) (upd (r_obj r) i t'), n), i)
      | None => ((r, n), i)                                         (* not reached: C49 *)
      end
  end.

(** langtags_full.py:357-358, 370-371: what the short form leaves out is hidden *)
Definition hide_like (base t : tag) : tag :=
  let t1 := if isNone (t_script base) then set_hidescript t true else t in
  if isNone (t_region base) then set_hideregion t1 true else t1.
Definition change (st : rstate) (i : nat) (f : tag -> tag) : rstate :=
  (mkReg (r_map (fst st)) (upd (r_obj (fst st)) i (f (r_obj (fst st) i))), snd st).
Definition put (st : rstate) (i : nat) : rstate := (fst (add order (fst st) i), snd st).

(** langtags_full.py:352-361: one likelySubtag element *)
Definition likely_entry (st : rstate) (e : pystr * pystr) : res rstate :=
  do to <- LangTag lower upper title (snd e);
  do base <- LangTag lower upper title (fst e);
  if ostreq (t_lang base) (Some (lit "und")) then Ok st
  else
    let '(st1, i) := settle_new st to in
    Ok (put (change st1 i (fun t => set_hideboth (hide_like base t) (t_hideboth base))) i).

(** langtags_full.py:366-372: one row of the extras *)
Definition extras_row (st : rstate) (e : pystr * (pystr * pystr)) : res rstate :=
  if streq (fst e) (lit "CLDR") then Ok st
  else
    do base <- LangTag lower upper title (fst (snd e));
    do to <- LangTag lower upper title (snd (snd e));
    let '(st1, i) := settle_new st to in
    Ok (put (change st1 i (hide_like base)) i).

Fixpoint read_each {A} (step : rstate -> A -> res rstate) (st : rstate) (es : list A) : res rstate :=
  match es with
  | [] => Ok st
  | e :: es' => do st1 <- step st e; read_each step st1 es'
  end.
Definition read_likely := read_each likely_entry.
Definition read_extras := read_each extras_row.

(** langtags_full.py:430-438: the scripts of each language; an attribute that is absent or empty
    is None. [SP] is the space that split(' ') splits at. *)
Definition SP : N := 32%N.
Definition lang_scripts (ls : list (pystr * option pystr)) : list (pystr * list pystr) :=
  fold_left (fun d p =>
    match snd p with
    | None => d
    | Some s => dset streq d (fst p)
        ((match dget streq d (fst p) with Some l => l | None => [] end) ++ split_on SP s)
    end) ls [].
(** langtags_full.py:442-447: the territories in which each language is listed *)
Definition lang_regions (ps : list (pystr * pystr)) : list (pystr * list pystr) :=
  fold_left (fun d p => dset streq d (snd p)
    ((match dget streq d (snd p) with Some l => l | None => [] end) ++ [fst p])) ps [].

(** langtags_full.py:456-459: the only script of the language *)
Definition give_script (scripts : list (pystr * list pystr)) (l : pystr) (t : tag) : tag :=
  match dget streq scripts l with
  | Some [s] => set_hidescript (if isNone (t_script t) then set_script t (Some s) else t) true
  | _ => t
  end.
Definition give_region (r : pystr) (t : tag) : tag := set_hideregion (set_region t (Some r)) true.

(** langtags_full.py:450-463: one language of the dictionary of regions *)
Definition supp_lang (scripts : list (pystr * list pystr)) (st : rstate) (e : pystr * list pystr) : res rstate :=
  match snd e with
  | [] => Raise IndexError
  | _ :: _ :: _ => Ok st
  | [rg] =>
      let l := fst e in
      do t <- LangTag lower upper title l;
      (* 456: [LangTag(l, region=r)], a new tag in any case *)
      let afresh := do t1 <- parse lower upper title (newtag None None (Some rg) None None) l;
                    Ok (let '(st1, i) := settle_new st (give_script scripts l t1) in put st1 i) in
      match dget streq (r_map (fst st)) (tag_str t) with
      | Some i =>
          let t0 := r_obj (fst st) i in
          match t_region t0 with
          | None =>
              let '(st1, j) := settle_old (change st i (fun t => give_script scripts l (give_region rg t))) i in
              Ok (put st1 j)
          | Some rg' =>
              if streq rg' rg then
                let '(st1, j) := settle_old (change st i (give_script scripts l)) i in Ok (put st1 j)
              else afresh
          end
      | None =>
          match t_region t with
          | None => Ok (let '(st1, i) := settle_new st (give_script scripts l (give_region rg t)) in put st1 i)
          | Some rg' =>
              if streq rg' rg
              then Ok (let '(st1, i) := settle_new st (give_script scripts l t) in put st1 i)
              else afresh
          end
      end
  end.

(** langtags_full.py:421-463 *)
Definition read_supplemental (st : rstate) (ls : list (pystr * option pystr)) (ps : list (pystr * pystr)) : res rstate :=
  read_each (supp_lang (lang_scripts ls)) st (lang_regions ps).
End Readers.
