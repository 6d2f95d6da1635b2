(** Model of the notes that merging leaves where both sides changed something
    (/repo/lib/sldr/ldml_merge.py 279-373, clash_text and clash_attrib) and of the lines that
    comments become in a written document (/repo/lib/sldr/ldml.py 160-161, 183-184).
    M_Merge3 has what merging does to the elements and leaves the notes out; here are the notes
    and nothing else. Simplifications: drafts are not in use, and the other document and the base
    are both there. *)
From Coq Require Import String.
From Verif Require Import Py M_LdmlBase M_Serialize M_Normalise M_Drafts M_Merge M_Merge3.
Local Open Scope list_scope.
Local Open Scope nat_scope.

(** str.format of a string or None *)
Definition shown (o : option pystr) : pystr := match o with Some s => s | None => lit "None" end.
(** the part both notes have: "{}" or "{}" from "{}" *)
Definition three (t o b : option pystr) : pystr :=
  lit """" ++ shown t ++ lit """ or """ ++ shown o ++ lit """ from """ ++ shown b ++ lit """".
(** line 368 *)
Definition text_note (t o b : option pystr) : pystr := lit "Clash: " ++ three t o b.
(** line 372 *)
Definition attr_note (k : pystr) (t o b : option pystr) : pystr :=
  lit "Attribute (" ++ k ++ lit ") clash: " ++ three t o b.

(** lines 310, 320-322 *)
Definition text_notes (this other base : lnode) : list pystr :=
  if opteq (ltext this) (ltext base) then []
  else if opteq (ltext other) (ltext base) then []
  else [text_note (ltext this) (ltext other) (ltext base)].
(** lines 327-338: the loop over our attributes. [attrs] is what they are by now. *)
Fixpoint attr_notes (keys : list pystr) (oattrs battrs attrs : list (pystr * pystr)) : list pystr :=
  match keys with
  | [] => []
  | k :: keys' =>
      match dget streq oattrs k with
      | Some ov =>
          let tv := dget streq attrs k in
          if (match dget streq battrs k with Some bv => opteq (Some bv) tv | None => false end
              && negb (opteq tv (Some ov)))%bool
          then attr_notes keys' oattrs battrs (dset streq attrs k ov)
          else if negb (opteq tv (Some ov))
          then attr_note k tv (Some ov) (dget streq battrs k) :: attr_notes keys' oattrs battrs attrs
          else attr_notes keys' oattrs battrs attrs
      | None =>
          if dmem streq battrs k then attr_notes keys' oattrs battrs (ddel streq attrs k)
          else attr_notes keys' oattrs battrs attrs
      end
  end.
Definition element_notes (this other base : lnode) : list pystr :=
  text_notes this other base ++ attr_notes (dkeys (lattrs this)) (lattrs other) (lattrs base) (lattrs this).

(** lines 279-344: all notes in the order they are made, each with the element that gets it,
    given by the keys on the way to it. Lines 294-301: a child is merged in its turn if it has
    both counterparts and all three differ. *)
Fixpoint merge_notes (this other base : lnode) {struct this} : list (list Z * pystr) :=
  match this with
  | LNode _ _ _ _ _ _ kids =>
      let ms := fst (align kids (Some other) (Some base)) in
      (fix go (ks : list lnode) (ms : list aligned) : list (list Z * pystr) :=
         match ks, ms with
         | t :: ks', (mo, mb) :: ms' =>
             (match mo, mb with
              | Some o, Some b =>
                  if (negb (Z.eqb (lch o) (lch t)) && negb (Z.eqb (lch b) (lch t)) && negb (Z.eqb (lch b) (lch o)))%bool
                  then map (fun pn => (lah t :: fst pn, snd pn)) (merge_notes t o b)
                  else []
              | _, _ => []
              end) ++ go ks' ms'
         | _, _ => []
         end) kids ms
      ++ map (fun c => ([], c)) (element_notes this other base)
  end.

(** ldml.py 160-161, 183-184: an element with its comments, [body] being what is written for the
    element itself *)
Definition comment_line (indent c : pystr) : pystr := indent ++ lit "<!--" ++ c ++ lit "-->" ++ nl.
Definition with_comments (indent : pystr) (before : list pystr) (body : pystr) (after : list pystr) : pystr :=
  flat_map (comment_line indent) before ++ body ++ flat_map (comment_line indent) after.
