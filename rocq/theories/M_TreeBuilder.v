(** Model of /repo/lib/sldr/py3xmlparser.py 9-80 (TreeBuilder) and of the reading loop of
    Ldml.__init__ (/repo/lib/sldr/ldml.py 441-477). *)
From Coq Require Import String.
From Verif Require Import Py M_LdmlBase.
Local Open Scope list_scope.

(** An element as the builder makes it, with text and tail. *)
Inductive xnode : Type :=
| XNode (tag : pystr) (attrs : list (pystr * pystr)) (text tail : option pystr)
        (kids : list xnode).
Definition xtag n := let '(XNode t _ _ _ _) := n in t.
Definition xattrs n := let '(XNode _ a _ _ _) := n in a.
Definition xtext n := let '(XNode _ _ x _ _) := n in x.
Definition xtail n := let '(XNode _ _ _ x _) := n in x.
Definition xkids n := let '(XNode _ _ _ _ k) := n in k.
Definition set_tail (n : xnode) (s : pystr) : xnode :=
  let '(XNode t a x _ k) := n in XNode t a x (Some s) k.

(** The calls a parser makes. *)
Inductive event :=
| EStart (tag : pystr) (attrs : list (pystr * pystr))
| EData (s : pystr)
| EEnd (tag : pystr).

(** An element that has been started and not ended. Its tail is None. *)
Record open_el := { o_tag : pystr; o_attrs : list (pystr * pystr); o_text : option pystr;
                    o_kids : list xnode }.

(** The state of a TreeBuilder (lines 22-29). Python's [_last] is a reference to the innermost
    open element when [_tail] is 0, and otherwise to the element that was closed last: the
    last child of the innermost open element, or the last top level element when none is
    open. We keep that element in place and so represent [_last] by the position alone;
    [tb_top] is the last top level element closed so far (None while [_last] is None). *)
Record tb := {
  tb_data : list pystr;          (* _data *)
  tb_elem : list open_el;        (* _elem, innermost first *)
  tb_top : option xnode;
  tb_tail : bool                 (* _tail, when _last is not None *)
}.
Definition tb_init : tb := {| tb_data := []; tb_elem := []; tb_top := None; tb_tail := false |}.

Definition with_data d s := {| tb_data := d; tb_elem := tb_elem s; tb_top := tb_top s; tb_tail := tb_tail s |}.
Definition with_elem e s := {| tb_data := tb_data s; tb_elem := e; tb_top := tb_top s; tb_tail := tb_tail s |}.
Definition with_top t s := {| tb_data := tb_data s; tb_elem := tb_elem s; tb_top := t; tb_tail := tb_tail s |}.

(** update the last element of a list *)
Fixpoint upd_last {A} (f : A -> A) (l : list A) : list A :=
  match l with
  | [] => []
  | [x] => [f x]
  | x :: l' => x :: upd_last f l'
  end.
Definition last_opt {A} (l : list A) : option A :=
  match rev l with [] => None | x :: _ => Some x end.

(** lines 37-47: _flush *)
Definition tb_flush (s : tb) : res tb :=
  match tb_data s with
  | [] => Ok s
  | data =>
      let text := concat data in
      match tb_elem s with
      | [] =>
          match tb_top s with
          | None => Ok (with_data [] s)                        (* _last is None *)
          | Some t =>                                          (* _tail is 1 *)
              match xtail t with
              | Some _ => Raise AssertionError
              | None => Ok (with_data [] (with_top (Some (set_tail t text)) s))
              end
          end
      | o :: os =>
          if tb_tail s then
            match last_opt (o_kids o) with
            | None => Raise AssertionError                     (* cannot happen *)
            | Some k =>
                match xtail k with
                | Some _ => Raise AssertionError
                | None =>
                    let o' := {| o_tag := o_tag o; o_attrs := o_attrs o; o_text := o_text o;
                                 o_kids := upd_last (fun k => set_tail k text) (o_kids o) |} in
                    Ok (with_data [] (with_elem (o' :: os) s))
                end
            end
          else
            match o_text o with
            | Some _ => Raise AssertionError
            | None =>
                let o' := {| o_tag := o_tag o; o_attrs := o_attrs o; o_text := Some text;
                             o_kids := o_kids o |} in
                Ok (with_data [] (with_elem (o' :: os) s))
            end
      end
  end.

(** lines 53-65: start. The new element is appended to its parent at once in Python; here it
    is moved to its place when it ends. *)
Definition tb_start (tag : pystr) (attrs : list (pystr * pystr)) (s : tb) : res tb :=
  do s <- tb_flush s;
  Ok {| tb_data := tb_data s;
        tb_elem := {| o_tag := tag; o_attrs := attrs; o_text := None; o_kids := [] |} :: tb_elem s;
        tb_top := tb_top s; tb_tail := false |}.

(** lines 67-79: end *)
Definition tb_end (tag : pystr) (s : tb) : res tb :=
  do s <- tb_flush s;
  match tb_elem s with
  | [] => Raise IndexError                                   (* pop from empty list *)
  | o :: os =>
      if streq (o_tag o) tag then
        let n := XNode (o_tag o) (o_attrs o) (o_text o) None (o_kids o) in
        match os with
        | [] => Ok {| tb_data := tb_data s; tb_elem := []; tb_top := Some n; tb_tail := true |}
        | p :: ps =>
            Ok {| tb_data := tb_data s;
                  tb_elem := {| o_tag := o_tag p; o_attrs := o_attrs p; o_text := o_text p;
                                o_kids := o_kids p ++ [n] |} :: ps;
                  tb_top := tb_top s; tb_tail := true |}
        end
      else Raise AssertionError                              (* end tag mismatch *)
  end.

Definition tb_event (s : tb) (e : event) : res tb :=
  match e with
  | EStart t a => tb_start t a s
  | EData d => Ok (with_data (tb_data s ++ [d]) s)           (* lines 49-51: data *)
  | EEnd t => tb_end t s
  end.
Fixpoint tb_run (s : tb) (es : list event) : res tb :=
  match es with
  | [] => Ok s
  | e :: es' => do s' <- tb_event s e; tb_run s' es'
  end.

(** lines 31-35: close *)
Definition tb_close (s : tb) : res xnode :=
  match tb_elem s with
  | _ :: _ => Raise AssertionError                           (* missing end tags *)
  | [] => match tb_top s with
          | None => Raise AssertionError                     (* missing toplevel element *)
          | Some t => Ok t
          end
  end.

(** * ldml.py 446-476: the loop over the events of iterparse *)

(** An element as Ldml keeps it, with its comments. *)
Inductive cnode : Type :=
| CNode (tag : pystr) (attrs : list (pystr * pystr)) (text : option pystr)
        (comments commentsafter : list pystr) (kids : list cnode).
Definition ctag n := let '(CNode t _ _ _ _ _) := n in t.
Definition ctext n := let '(CNode _ _ x _ _ _) := n in x.
Definition ckids n := let '(CNode _ _ _ _ _ k) := n in k.
Definition set_after (c : list pystr) (n : cnode) : cnode :=
  let '(CNode t a x b _ k) := n in CNode t a x b c k.

Definition comment_tag : pystr := lit "!--".
(** the three up arrows U+2191 *)
Definition uparrow3 : pystr := [8593; 8593; 8593]%N.

(** The events arrive in document order for a tree the builder has (at least up to that point)
    built, so the loop is written as a recursion over that tree. A comment arrives as an
    element with the tag "!--" and one attribute "text" (lines 441-444).
    State: the pending comments. Result for one element: what remains of it (None when it is
    removed) and the pending comments.
    [top] tells that there is no parent: then [curr] is None at line 473. *)
Section Loop.
  Variable uparrows : bool.

  Fixpoint loop_el (top : bool) (n : xnode) (pending : list pystr) : res (option cnode * list pystr) :=
    match n with
    | XNode tag attrs text _ kids =>
        if streq tag comment_tag then
          (* lines 451-452 and 462-464 *)
          let c := match dget streq attrs (lit "text") with Some t => t | None => [] end in
          Ok (None, pending ++ [c])
        else
          (* lines 454-461; then the children; [hd] is elem.hasdeletedchild *)
          let kloop :=
            (fix kloop (ks : list xnode) (hd : bool) (acc : list cnode) (pending : list pystr)
               : res (list cnode * bool * list pystr) :=
               match ks with
               | [] => Ok (acc, hd, pending)
               | k :: ks' =>
                   do r <- loop_el false k pending;
                   match r with
                   | (Some c, p) => kloop ks' (if uparrows then hd else false) (acc ++ [c]) p
                   | (None, p) =>
                       kloop ks' (if streq (xtag k) comment_tag then hd else true) acc p
                   end
               end) in
          do r <- kloop kids false [] [];
          let '(ks, hd, p) := r in
          (* lines 466-468 *)
          let '(ks, p) := match p, ks with
                          | _ :: _, _ :: _ => (upd_last (set_after p) ks, [])
                          | _, _ => (ks, p)
                          end in
          let elem := CNode tag attrs text pending [] ks in
          (* lines 470-476 *)
          let inherit := match text with Some t => streq t uparrow3 | None => false end in
          if negb uparrows && (inherit || (hd && match ks with [] => true | _ => false end)) then
            if top then Raise AttributeError else Ok (None, p)
          else Ok (Some elem, p)
    end.

  (** the whole document; the root cannot be a comment *)
  Definition read_loop (n : xnode) (pending : list pystr) : res cnode :=
    do r <- loop_el true n pending;
    match r with
    | (Some c, _) => Ok c
    | (None, _) => Raise AttributeError       (* self.root is never set *)
    end.
End Loop.
